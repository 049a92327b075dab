(** * P_Segment: properties C27-C39 of Segment2D over ideal reals *)
From Coq Require Import ZArith List Bool String Reals Lra Lia Psatz.
From Flocq Require Import Core.
From Verif Require Import Base Types NumR R_Tac Spec Abs M_Angle M_Vector M_Line M_Triangle M_Segment
  L_Angle L_Trig P_Angle P_Vector P_Line L_Seg.
Import ListNotations.
Local Open Scope R_scope.

(** ** C27 *)
Theorem C27_exist_intersection_R : forall s o : seg R,
  exists b, Segment2D_exist_intersection s (VSeg o) = VBool b /\
    (b = true <-> exists q, spts s q /\ spts o q).
Proof.
  intros s o. eexists; split; [reflexivity|]. apply exist_intersection_seg_R.
Qed.
(** Overlapping collinear segments none of whose end points coincide. *)
Example C27_nonvacuous :
  Segment2D_exist_intersection_seg (mkSeg (mkVec 0 0 true) (mkVec 4 2 true)) (mkSeg (mkVec 2 1 true) (mkVec 8 4 true)) = true
  /\ Segment2D_exist_intersection_seg (mkSeg (mkVec 0 0 true) (mkVec 1 0 true)) (mkSeg (mkVec 2 0 true) (mkVec 3 0 true)) = false.
Proof.
  split.
  - apply exist_intersection_seg_R. exists (2,1). split.
    + exists (1/2). split; [lra|]. apply point_eq; cbn; lra.
    + exists 0. split; [lra|]. apply point_eq; cbn; lra.
  - apply not_true_iff_false. rewrite exist_intersection_seg_R. intros [q [[t [Ht E]] [u [Hu E']]]].
    assert (px (lerp (pt (mkVec 0 0 true)) (pt (mkVec 1 0 true)) t) = px (lerp (pt (mkVec 2 0 true)) (pt (mkVec 3 0 true)) u)) by
      (unfold s_origin, s_terminal in *; congruence).
    unfold lerp in H; cbn in H. lra.
Qed.

(** ** C28 *)
(** In any arithmetic whose equality test is symmetric (reals, doubles) the
    test is literally symmetric in its two operands. *)
Section C28.
  Context {T : Type} `{Num T}.
  Theorem C28_symmetric : (forall x y : T, neqb x y = neqb y x) ->
    forall s o : seg T, Segment2D_exist_intersection s (VSeg o) = Segment2D_exist_intersection o (VSeg s).
  Proof.
    intros Hsym s o. cbn [Segment2D_exist_intersection]. f_equal.
    unfold Segment2D_exist_intersection_seg.
    rewrite (andb_comm (_ <? _)%num).
    destruct (_ && _); [reflexivity|].
    destruct (Vector2D_eq (s_origin s) (s_terminal s)) eqn:E1;
    destruct (Vector2D_eq (s_origin o) (s_terminal o)) eqn:E2; try reflexivity.
    - unfold Vector2D_eq. f_equal; apply Hsym.
    - repeat match goal with |- context [?b && check_intersects_on_line ?x ?y] =>
        generalize (b && check_intersects_on_line x y); intro end.
      repeat match goal with b : bool |- _ => destruct b end; reflexivity.
  Qed.
End C28.
Lemma Req_bool_sym x y : Req_bool x y = Req_bool y x.
Proof. destruct (Req_bool_spec x y), (Req_bool_spec y x); congruence. Qed.
Theorem C28_symmetric_R : forall s o : seg R,
  Segment2D_exist_intersection s (VSeg o) = Segment2D_exist_intersection o (VSeg s) /\
  Segment2D_exist_intersection (Segment2D_swap s) (VSeg o) = Segment2D_exist_intersection s (VSeg o) /\
  Segment2D_exist_intersection s (VSeg (Segment2D_swap o)) = Segment2D_exist_intersection s (VSeg o).
Proof.
  assert (SW : forall s o : seg R, Segment2D_exist_intersection_seg (Segment2D_swap s) o = Segment2D_exist_intersection_seg s o).
  { intros s o. apply eq_true_iff_eq. rewrite !exist_intersection_seg_R.
    assert (HS : forall q, spts (Segment2D_swap s) q <-> spts s q).
    { intros q; unfold spts; cbn; split; apply on_seg_swap. }
    split; intros [q [H1 H2]]; exists q; split; try easy; now apply HS. }
  assert (SY : forall s o : seg R, Segment2D_exist_intersection s (VSeg o) = Segment2D_exist_intersection o (VSeg s)).
  { apply C28_symmetric. exact Req_bool_sym. }
  intros s o. split; [apply SY|]. split.
  - cbn; now rewrite SW.
  - rewrite SY, (SY s o). cbn; now rewrite SW.
Qed.

(** ** C29 *)
Theorem C29_exist_intersection_line_R : forall (s : seg R) (l : line R),
  exists b, Segment2D_exist_intersection s (VLine l) = VBool b /\
    (b = true <-> exists q, spts s q /\ lpts l q).
Proof.
  intros s l. eexists; split; [reflexivity|].
  unfold Segment2D_exist_intersection_line; rnum. rewrite Rle_bool_iff.
  set (f := fun p : point => l_a l * px p + l_b l * py p + l_c l).
  change (f (pt (s_origin s)) * f (pt (s_terminal s)) <= 0 <-> exists q, spts s q /\ f q = 0).
  assert (HL : forall t, f (lerp (pt (s_origin s)) (pt (s_terminal s)) t) = (1 - t) * f (pt (s_origin s)) + t * f (pt (s_terminal s))).
  { intros t. unfold f, lerp; cbn. ring. }
  set (x := f (pt (s_origin s))) in *. set (y := f (pt (s_terminal s))) in *.
  split.
  - intros H. destruct (Req_dec x 0) as [E|E].
    { exists (pt (s_origin s)). split; [apply on_seg_l|exact E]. }
    destruct (Req_dec y 0) as [E'|E'].
    { exists (pt (s_terminal s)). split; [apply on_seg_r|exact E']. }
    assert (x * y < 0). { destruct H; [easy|]. apply Rmult_integral in H; tauto. }
    exists (lerp (pt (s_origin s)) (pt (s_terminal s)) (x / (x - y))). split.
    + pose proof (ratio_01 x y H0). eexists; split; [|reflexivity]. lra.
    + rewrite HL. assert (x - y <> 0) by nra. field; easy.
  - intros [q [[t [Ht ->]] Hq]]. rewrite HL in Hq.
    destruct (Rle_dec (x * y) 0); [easy|]. exfalso.
    assert (0 < x * y) by lra. destruct (Rlt_dec 0 x).
    + assert (0 < y) by nra. destruct (Req_dec t 0); nra.
    + assert (x <> 0) by (intros Z; rewrite Z in H; lra). assert (x < 0) by lra. assert (y < 0) by nra. destruct (Req_dec t 0); nra.
Qed.
Example C29_nonvacuous :
  Segment2D_exist_intersection_line (mkSeg (mkVec 0 0 true) (mkVec 4 2 true)) (mkLine 1 0 (-2)) = true /\
  Segment2D_exist_intersection_line (mkSeg (mkVec 0 0 true) (mkVec 4 2 true)) (mkLine 1 0 (-5)) = false.
Proof. unfold Segment2D_exist_intersection_line; rnum; cbn. split; [apply Rle_bool_true|apply Rle_bool_false]; lra. Qed.

(** ** C30 *)
Lemma except_endpoint_R s o :
  Segment2D_exist_intersection_except_endpoint s o = true <->
  area2 (pt (s_origin s)) (pt (s_terminal s)) (pt (s_origin o)) * area2 (pt (s_origin s)) (pt (s_terminal s)) (pt (s_terminal o)) < 0 /\
  area2 (pt (s_origin o)) (pt (s_terminal o)) (pt (s_origin s)) * area2 (pt (s_origin o)) (pt (s_terminal o)) (pt (s_terminal s)) < 0.
Proof.
  unfold Segment2D_exist_intersection_except_endpoint. rewrite !dsa_R. rnum.
  rewrite andb_true_iff, !Rlt_bool_iff. easy.
Qed.
Theorem C30_except_endpoint_R : forall s o : seg R,
  Segment2D_exist_intersection_except_endpoint s o = true <->
  cross (psub (pt (s_terminal s)) (pt (s_origin s))) (psub (pt (s_terminal o)) (pt (s_origin o))) <> 0 /\
  exists q, in_open_seg (pt (s_origin s)) (pt (s_terminal s)) q /\
            in_open_seg (pt (s_origin o)) (pt (s_terminal o)) q.
Proof.
  intros s o. rewrite except_endpoint_R.
  set (a := pt (s_origin s)). set (b := pt (s_terminal s)).
  set (c := pt (s_origin o)). set (d := pt (s_terminal o)).
  assert (E : cross (psub b a) (psub d c) = area2 a b d - area2 a b c) by (unfold area2, cross, psub; cbn; ring).
  pose proof (area_rel a b c d) as REL. rewrite E. split.
  - intros [H1 H2]. split; [nra|]. now apply proper_cross_exists.
  - intros [Hn [q [[u [Hu Eu]] [t [Ht Et]]]]].
    assert (A : (1 - t) * area2 a b c + t * area2 a b d = 0).
    { rewrite <- area2_lerp, <- Et, Eu. apply area2_line. }
    assert (B : (1 - u) * area2 c d a + u * area2 c d b = 0).
    { rewrite <- area2_lerp, <- Eu, Et. apply area2_line. }
    assert (SG : forall x y w, 0 < w < 1 -> (1 - w) * x + w * y = 0 -> y - x <> 0 -> x * y < 0).
    { intros x y w Hw HE HN. assert (x <> 0). { intros Z. rewrite Z in *. apply HN. assert (w * y = 0) by lra. apply Rmult_integral in H; lra. }
      assert (K : y = - ((1-w)/w) * x) by (apply Rmult_eq_reg_l with w; [field_simplify; lra|lra]).
      assert (0 < (1-w)/w) by (apply Rdiv_lt_0_compat; lra). assert (0 < x * x) by nra. rewrite K. nra. }
    split; [eapply SG; eauto; lra|]. eapply (SG _ _ u); eauto; lra.
Qed.
Example C30_nonvacuous :
  Segment2D_exist_intersection_except_endpoint (mkSeg (mkVec 0 0 true) (mkVec 2 2 true)) (mkSeg (mkVec 0 2 true) (mkVec 2 0 true)) = true /\
  Segment2D_exist_intersection_except_endpoint (mkSeg (mkVec 0 0 true) (mkVec 2 2 true)) (mkSeg (mkVec 1 1 true) (mkVec 2 0 true)) = false.
Proof.
  split.
  - apply except_endpoint_R. unfold area2, cross, psub; cbn. lra.
  - apply not_true_iff_false. rewrite except_endpoint_R. unfold area2, cross, psub; cbn. lra.
Qed.

(** ** C31 - C34 *)
Theorem C31_nearest_point_R : forall (s : seg R) (p : vec R),
  exists v, Segment2D_nearest_point s p = Ok v /\
    spts s (pt v) /\ forall q, spts s q -> edist (pt p) (pt v) <= edist (pt p) q.
Proof. exact nearest_point_R. Qed.
Theorem C32_dist_point_R : forall (s : seg R) (p : vec R),
  exists d v, Segment2D_dist s (VVec p) = Ok d /\ is_min_dist (spts s) (pt p) d /\
    Segment2D_nearest_point s p = Ok v /\ d = edist (pt p) (pt v).
Proof.
  intros s p. destruct (dist_point_R s p) as (d & Hd & Hmin).
  destruct (nearest_point_R s p) as (v & Hv & Hon & Hn).
  exists d, v. repeat split; try easy; try apply Hmin.
  destruct Hmin as [[q [Hq Eq]] Hm]. apply Rle_antisym; [now apply Hm|]. rewrite <- Eq. now apply Hn.
Qed.
Theorem C33_dist_seg_R : forall s o : seg R,
  exists d, Segment2D_dist s (VSeg o) = Ok d /\ is_set_dist (spts s) (spts o) d /\
    (d = 0 <-> exists q, spts s q /\ spts o q).
Proof.
  intros s o. destruct (dist_seg_R s o) as (d & Hd & Hmin). exists d. split; [exact Hd|]. split; [exact Hmin|].
  destruct Hmin as [(p & q & Hp & Hq & E) Hm]. split.
  - intros Z. rewrite Z in E. apply edist_zero in E. subst q. now exists p.
  - intros (r & H1 & H2). specialize (Hm r r H1 H2). rewrite edist_refl in Hm.
    pose proof (edist_nonneg p q). lra.
Qed.
Theorem C34_farthest_dist_R : forall (s : seg R) (p : vec R),
  exists d, Segment2D_farthest_dist s p = Ok d /\ is_max_dist (spts s) (pt p) d.
Proof.
  intros s p. unfold Segment2D_farthest_dist. rewrite !dist2_R. cbn [bind]. rewrite nmax_R. rnum.
  set (a := pt (s_origin s)). set (b := pt (s_terminal s)).
  rewrite Rsqrt_py_ok. 2:{ pose proof (norm2_nonneg (psub a (pt p))). unfold Rmax; destruct Rle_dec; lra. }
  eexists; split; [reflexivity|].
  assert (Ea : norm2 (psub a (pt p)) = norm2 (psub (pt p) a)) by (unfold norm2, psub; cbn; ring).
  assert (Eb : norm2 (psub b (pt p)) = norm2 (psub (pt p) b)) by (unfold norm2, psub; cbn; ring).
  split.
  - unfold Rmax; destruct Rle_dec.
    + exists b. split; [apply on_seg_r|]. unfold edist, norm. now rewrite Eb.
    + exists a. split; [apply on_seg_l|]. unfold edist, norm. now rewrite Ea.
  - intros q [t [Ht ->]]. unfold edist, norm. apply sqrt_le_1_alt. fold a b.
    assert (E : norm2 (psub (pt p) (lerp a b t)) = (1 - t) * norm2 (psub (pt p) a) + t * norm2 (psub (pt p) b) - t * (1 - t) * norm2 (psub b a))
      by (unfold norm2, psub, lerp; cbn; ring).
    rewrite E, Ea, Eb. pose proof (norm2_nonneg (psub b a)).
    assert (0 <= t * (1 - t) * norm2 (psub b a)) by (apply Rmult_le_pos; [nra|easy]).
    pose proof (Rmax_l (norm2 (psub (pt p) a)) (norm2 (psub (pt p) b))).
    pose proof (Rmax_r (norm2 (psub (pt p) a)) (norm2 (psub (pt p) b))).
    set (M := Rmax _ _) in *.
    assert ((1 - t) * norm2 (psub (pt p) a) <= (1-t) * M) by (apply Rmult_le_compat_l; lra).
    assert (t * norm2 (psub (pt p) b) <= t * M) by (apply Rmult_le_compat_l; lra). lra.
Qed.
(** dist on anything else raises. *)
Theorem C32_dist_other_R : forall (s : seg R) (x : R) (l : line R),
  Segment2D_dist s (VNum x) = Raise GenericException /\ Segment2D_dist s (VLine l) = Raise GenericException.
Proof. easy. Qed.
Example C33_nonvacuous : Segment2D_dist (mkSeg (mkVec 0 0 true) (mkVec 1 0 true)) (VSeg (mkSeg (mkVec 2 0 true) (mkVec 3 0 true))) <> Ok 0.
Proof.
  destruct (C33_dist_seg_R (mkSeg (mkVec 0 0 true) (mkVec 1 0 true)) (mkSeg (mkVec 2 0 true) (mkVec 3 0 true))) as (d & -> & _ & Hz).
  intros [= ->]. destruct (proj1 Hz eq_refl) as [q H].
  assert (K := proj2 C27_nonvacuous). apply not_true_iff_false in K. apply K, exist_intersection_seg_R. now exists q.
Qed.

(** ** C35 *)
Theorem C35_on_segment_R : forall (s : seg R) (p : vec R),
  (pt (s_origin s) <> pt (s_terminal s) -> (Segment2D_on_segment s p = true <-> spts s (pt p))) /\
  (pt (s_origin s) = pt (s_terminal s) -> (Segment2D_on_segment s p = true <-> vy p = vy (s_origin s))).
Proof.
  intros s p. unfold Segment2D_on_segment. rewrite dsa_R. rnum. rewrite andb_true_iff, Req_bool_iff. split.
  - intros H. now apply chk.
  - intros H. injection H as Hx Hy. unfold check_intersects_on_line; rnum. rewrite Hx, Req_bool_true by easy.
    rewrite Hy. rewrite orb_true_iff, !andb_true_iff, !Rle_bool_iff.
    unfold area2, cross, psub; cbn. rewrite Hx, Hy. split; [lra|]. intros ->. split; [ring|lra].
Qed.
Theorem C35_degenerate_refuted : exists (s : seg R) (p : vec R), Segment2D_on_segment s p = true /\ ~ spts s (pt p).
Proof.
  exists (mkSeg (mkVec 0 0 true) (mkVec 0 0 true)), (mkVec 5 0 true). split.
  - apply C35_on_segment_R; reflexivity.
  - intros H. apply on_seg_same in H. injection H. lra.
Qed.

(** ** C36 *)
(** The tolerance: 3.2e-5 bounds sqrt(CALC_ERROR). *)
Theorem C36_contains_R : forall (s : seg R) (p : vec R),
  (btw (vx (s_origin s)) (vx (s_terminal s)) (vx p) -> btw (vy (s_origin s)) (vy (s_terminal s)) (vy p) ->
     Segment2D_contains s p = true) /\
  (Segment2D_contains s p = true ->
     Rmin (vx (s_origin s)) (vx (s_terminal s)) - 32/1000000 <= vx p <= Rmax (vx (s_origin s)) (vx (s_terminal s)) + 32/1000000 /\
     Rmin (vy (s_origin s)) (vy (s_terminal s)) - 32/1000000 <= vy p <= Rmax (vy (s_origin s)) (vy (s_terminal s)) + 32/1000000) /\
  (spts s (pt p) -> Segment2D_contains s p = true).
Proof.
  intros s p.
  assert (H1 : btw (vx (s_origin s)) (vx (s_terminal s)) (vx p) -> btw (vy (s_origin s)) (vy (s_terminal s)) (vy p) ->
     Segment2D_contains s p = true).
  { intros Hx Hy. unfold Segment2D_contains; rnum. rewrite andb_true_iff, !Rle_bool_iff. unfold btw in *.
    split; [clear Hy; destruct Hx|clear Hx; destruct Hy]; nra. }
  split; [exact H1|]. split.
  - unfold Segment2D_contains; rnum. rewrite andb_true_iff, !Rle_bool_iff.
    assert (K : forall a b x, (x - a) * (x - b) <= 1/1000000000 -> Rmin a b - 32/1000000 <= x <= Rmax a b + 32/1000000).
    { intros a b x H. unfold Rmin, Rmax. destruct (Rle_dec a b).
      - split.
        + destruct (Rle_dec (a - 32/1000000) x); [easy|exfalso].
          assert (32/1000000 * (32/1000000) <= (a - x) * (b - x)) by (apply Rmult_le_compat; lra). nra.
        + destruct (Rle_dec x (b + 32/1000000)); [easy|exfalso].
          assert (32/1000000 * (32/1000000) <= (x - a) * (x - b)) by (apply Rmult_le_compat; lra). nra.
      - split.
        + destruct (Rle_dec (b - 32/1000000) x); [easy|exfalso].
          assert (32/1000000 * (32/1000000) <= (a - x) * (b - x)) by (apply Rmult_le_compat; lra). nra.
        + destruct (Rle_dec x (a + 32/1000000)); [easy|exfalso].
          assert (32/1000000 * (32/1000000) <= (x - a) * (x - b)) by (apply Rmult_le_compat; lra). nra. }
    intros [Hx Hy]. split; now apply K.
  - intros [t [Ht E]]. injection E as Ex Ey. cbn in *.
    assert (B : forall a b x, x = a + t * (b - a) -> btw a b x).
    { intros a b x ->. unfold btw. destruct (Rle_dec a b); [left|right]; nra. }
    apply H1; now apply B.
Qed.

(** ** C37 *)
Theorem C37_intersection_line_R : forall (s : seg R) (l : line R),
  exists v, Segment2D_intersection s [VLine l] = Ok v /\
    (v_valid v = true -> lpts l (pt v) /\ on_line2 (pt (s_origin s)) (pt (s_terminal s)) (pt v) /\
       Segment2D_contains s v = true) /\
    (** completeness: a common point is found unless the lines count as parallel *)
    (Line2D_is_parallel (Segment2D_line s) l = false ->
       forall q, spts s q -> lpts l q -> v_valid v = true /\ pt v = q).
Proof.
  intros s l. cbn [Segment2D_intersection]. unfold Segment2D_intersection_line.
  destruct (C22_intersection_R (Segment2D_line s) l) as (w & -> & Hval & Hpar & Hq & Hinv). cbn [bind].
  destruct (v_valid w) eqn:EW; cbn [negb orb].
  2:{ eexists; split; [reflexivity|]. split; [discriminate|]. intros Hp. apply Hpar in Hp. discriminate. }
  specialize (Hq eq_refl).
  destruct (Segment2D_contains s w) eqn:EC; cbn [negb].
  - exists w. split; [reflexivity|]. split.
    + intros _. destruct (proj2 (Hq (pt w)) eq_refl) as [H1 H2]. split; [exact H2|]. split; [|exact EC].
      apply collinear_on_line2.
      * intros E. assert (Rabs (l_a (Segment2D_line s) * l_b l - l_b (Segment2D_line s) * l_a l) >= 1/1000000) as K by now apply Hval.
        unfold Segment2D_line in K. rewrite of_points_R in K; cbn in K. injection E as Ex Ey.
        replace (_ - _) with 0 in K by (rewrite Ex, Ey; ring).
        rewrite Rabs_R0 in K. lra.
      * apply lpts_of_points. exact H1.
    + intros _ q Q1 Q2. split; [exact EW|]. symmetry. apply Hq. split; [|easy].
      apply lpts_of_points. now apply on_seg_area.
  - eexists; split; [reflexivity|]. split; [discriminate|]. intros _ q Q1 Q2. exfalso.
    assert (E : q = pt w). { apply Hq. split; [|easy]. apply lpts_of_points. now apply on_seg_area. }
    subst q. apply (proj2 (proj2 (C36_contains_R s w))) in Q1. congruence.
Qed.

Theorem C37_intersection_seg_R : forall s o : seg R,
  let properly_cross := cross (psub (pt (s_terminal s)) (pt (s_origin s))) (psub (pt (s_terminal o)) (pt (s_origin o))) <> 0 /\
    exists q, in_open_seg (pt (s_origin s)) (pt (s_terminal s)) q /\ in_open_seg (pt (s_origin o)) (pt (s_terminal o)) q in
  exists v w, Segment2D_intersection s [VSeg o] = Ok v /\
    Segment2D_intersection s [VSeg o; VBool false] = Ok v /\
    Segment2D_intersection s [VSeg o; VBool true] = Ok w /\
    (** end points not allowed: valid exactly for proper crossings above the
        parallel threshold, and then the unique common point *)
    (v_valid v = true <-> properly_cross /\ Line2D_is_parallel (Segment2D_line s) (Segment2D_line o) = false) /\
    (v_valid v = true -> forall q, spts s q /\ spts o q <-> q = pt v) /\
    (** end points allowed: every common point is found above the threshold,
        and a found point is on both carriers, inside both tolerance boxes *)
    (v_valid w = true -> Segment2D_contains s w = true /\ Segment2D_contains o w = true /\
        area2 (pt (s_origin s)) (pt (s_terminal s)) (pt w) = 0 /\ area2 (pt (s_origin o)) (pt (s_terminal o)) (pt w) = 0) /\
    (Line2D_is_parallel (Segment2D_line s) (Segment2D_line o) = false ->
       forall q, spts s q -> spts o q -> v_valid w = true /\ pt w = q).
Proof.
  intros s o PC. cbn [Segment2D_intersection]. unfold Segment2D_intersection_seg.
  destruct (C22_intersection_R (Segment2D_line s) (Segment2D_line o)) as (w & -> & Hval & Hpar & Hq & Hinv). cbn [bind].
  assert (HPC : Segment2D_exist_intersection_except_endpoint s o = true <-> PC) by apply C30_except_endpoint_R.
  assert (ONL : forall s' q, spts s' q -> lpts (Segment2D_line s') q).
  { intros s' q K. apply lpts_of_points. now apply on_seg_area. }
  destruct (v_valid w) eqn:EW; cbn [negb orb].
  2:{ do 2 eexists. do 3 (split; [reflexivity|]). split; [split; [discriminate|]|].
      - intros [_ Hp]. apply Hpar in Hp. discriminate.
      - split; [discriminate|]. split; [discriminate|]. intros Hp. apply Hpar in Hp. discriminate. }
  specialize (Hq eq_refl).
  assert (Hp : Line2D_is_parallel (Segment2D_line s) (Segment2D_line o) = false) by now apply Hpar.
  assert (COM : forall q, spts s q -> spts o q -> q = pt w /\ Segment2D_contains s w = true /\ Segment2D_contains o w = true).
  { intros q Q1 Q2. assert (E : q = pt w) by (apply Hq; split; now apply ONL). subst q. split; [easy|].
    split; [now apply (proj2 (proj2 (C36_contains_R s w)))|now apply (proj2 (proj2 (C36_contains_R o w)))]. }
  assert (PCq : PC -> spts s (pt w) /\ spts o (pt w)).
  { intros [_ (q & [u [Hu Eu]] & [t [Ht Et]])].
    assert (Q1 : spts s q) by (exists u; split; [lra|easy]). assert (Q2 : spts o q) by (exists t; split; [lra|easy]).
    destruct (COM q Q1 Q2) as [<- _]. now split. }
  destruct (Segment2D_contains s w) eqn:EC1; destruct (Segment2D_contains o w) eqn:EC2; cbn [negb orb andb].
  - (* contained in both *)
    destruct (proj2 (Hq (pt w)) eq_refl) as [W1 W2].
    apply lpts_of_points in W1. apply lpts_of_points in W2.
    exists (if Segment2D_exist_intersection_except_endpoint s o then w else Vector2D_invalid), w.
    split; [now destruct (Segment2D_exist_intersection_except_endpoint s o)|].
    split; [now destruct (Segment2D_exist_intersection_except_endpoint s o)|].
    split; [reflexivity|]. split; [|split; [|split]].
    + destruct (Segment2D_exist_intersection_except_endpoint s o) eqn:EE.
      * split; [|easy]. intros _. split; [now apply HPC|easy].
      * split; [discriminate|]. intros [K _]. apply HPC in K. discriminate.
    + destruct (Segment2D_exist_intersection_except_endpoint s o) eqn:EE; [|discriminate].
      intros _ q. split; [intros [Q1 Q2]; now apply COM|]. intros ->. apply PCq. now apply HPC.
    + intros _. repeat split; try easy.
    + intros _ q Q1 Q2. split; [easy|]. symmetry. now apply COM.
  - do 2 eexists. do 3 (split; [reflexivity|]). split; [split; [discriminate|]|split; [discriminate|split; [discriminate|]]].
    + intros [K _]. destruct (PCq K) as [Q1 Q2]. destruct (COM _ Q1 Q2) as (_ & _ & ?). congruence.
    + intros _ q Q1 Q2. destruct (COM _ Q1 Q2) as (_ & _ & ?). congruence.
  - do 2 eexists. do 3 (split; [reflexivity|]). split; [split; [discriminate|]|split; [discriminate|split; [discriminate|]]].
    + intros [K _]. destruct (PCq K) as [Q1 Q2]. destruct (COM _ Q1 Q2) as (_ & ? & _). congruence.
    + intros _ q Q1 Q2. destruct (COM _ Q1 Q2) as (_ & ? & _). congruence.
  - do 2 eexists. do 3 (split; [reflexivity|]). split; [split; [discriminate|]|split; [discriminate|split; [discriminate|]]].
    + intros [K _]. destruct (PCq K) as [Q1 Q2]. destruct (COM _ Q1 Q2) as (_ & ? & _). congruence.
    + intros _ q Q1 Q2. destruct (COM _ Q1 Q2) as (_ & ? & _). congruence.
Qed.
Example C37_nonvacuous :
  Line2D_is_parallel (Segment2D_line (mkSeg (mkVec 0 0 true) (mkVec 2 2 true))) (Segment2D_line (mkSeg (mkVec 0 2 true) (mkVec 2 0 true))) = false.
Proof. unfold Line2D_is_parallel, Segment2D_line. rewrite !of_points_R. rnum; cbn. apply Rlt_bool_false. rewrite Rabs_left; lra. Qed.

(** ** C38 *)
(** [foot] parameter along the unit direction: ip = (p-o).(t-o)/|t-o| *)
Theorem C38_projection_R : forall (s : seg R) (p : vec R),
  let a := pt (s_origin s) in let b := pt (s_terminal s) in
  let len := edist a b in
  let ip := dot (psub b a) (psub (pt p) a) / len in
  exists v, Segment2D_projection s p = Ok v /\
    (len < 1/1000000 -> v = s_origin s) /\
    (len >= 1/1000000 -> (v_valid v = true <-> - (1/1000000) < ip < len + 1/1000000)) /\
    (len >= 1/1000000 -> v_valid v = true ->
        pt v = lerp a b (ip / len) /\ dot (psub (pt p) (pt v)) (psub b a) = 0) /\
    (len >= 1/1000000 -> v_valid v = false -> v = Vector2D_invalid).
Proof.
  intros s p a b len ip.
  unfold Segment2D_projection. rewrite r_R. cbn [bind].
  assert (E : norm (pt (Vector2D_sub (s_terminal s) (s_origin s))) = len) by (unfold len; rewrite edist_sym; reflexivity).
  rewrite E. rnum.
  assert (Hll : len * len = norm2 (psub b a)).
  { unfold len, edist. rewrite norm_sq. unfold norm2, psub; cbn; ring. }
  destruct (Rlt_bool_spec len (1/1000000)) as [H|H].
  { eexists; split; [reflexivity|]. split; [easy|]. split; [lra|]. split; lra. }
  unfold Vector2D_truediv, Vector2D_sub, V; rnum; cbn [vx vy]. rewrite !Rdiv_py_ok by lra.
  unfold Vector2D_inner_product; rnum; cbn [vx vy].
  match goal with |- context [Rlt_bool _ ?x && _] => replace x with ip end.
  2:{ unfold ip, dot, psub, a, b; cbn. field. lra. }
  destruct (Rlt_bool_spec (-(1/1000000)) ip); destruct (Rlt_bool_spec ip (len + 1/1000000)); cbn [andb];
    eexists; (split; [reflexivity|]).
  2-4: cbn; repeat split; intros; try discriminate; lra.
  split; [lra|]. split; [intros _; split; intros; [lra|reflexivity]|]. split; [|discriminate].
  intros _ _. assert (Ev : pt (Vector2D_iadd (Vector2D_of_vec (s_origin s))
     (Vector2D_imul (mkVec ((vx (s_terminal s) - vx (s_origin s)) / len) ((vy (s_terminal s) - vy (s_origin s)) / len) true) ip)) = lerp a b (ip/len)).
  { apply point_eq; unfold lerp, a, b; cbn; field; lra. }
  match type of Ev with ?v = _ => match goal with |- ?w = _ /\ _ => change w with v end end.
  split; [exact Ev|].
  match type of Ev with ?v = _ => match goal with |- dot (psub _ ?w) _ = _ => change w with v end end. rewrite Ev.
  assert (K : dot (psub (pt p) (lerp a b (ip/len))) (psub b a) = dot (psub b a) (psub (pt p) a) - ip / len * norm2 (psub b a))
    by (unfold dot, psub, lerp, norm2; cbn; ring).
  rewrite K, <- Hll. unfold ip. field. lra.
Qed.
Example C38_nonvacuous : edist (pt (mkVec 0 0 true)) (pt (mkVec 3 4 true)) >= 1/1000000.
Proof. unfold edist, norm, norm2, psub; cbn. replace (_ + _) with (5*5) by ring. rewrite sqrt_square; lra. Qed.

(** ** C39 *)
Theorem C39_swap_R : forall s : seg R,
  Segment2D_swap (Segment2D_swap s) = s /\
  (forall q, spts (Segment2D_swap s) q <-> spts s q) /\
  Segment2D_length (Segment2D_swap s) = Segment2D_length s /\
  s_origin (Segment2D_swap s) = s_terminal s /\ s_terminal (Segment2D_swap s) = s_origin s /\
  (forall q, spts (Segment2D_reversed_segment s) q <-> spts s q) /\
  pt (s_origin (Segment2D_reversed_segment s)) = pt (s_terminal s) /\
  (forall q, spts (Segment2D_copy s) q <-> spts s q) /\
  (Segment2D_is_valid s = false <->
     tiny (vx (s_origin s) - vx (s_terminal s)) (vy (s_origin s) - vy (s_terminal s))).
Proof.
  intros s. split; [now destruct s|].
  assert (SW : forall s' q, spts (Segment2D_swap s') q <-> spts s' q) by (intros; unfold spts; cbn; split; apply on_seg_swap).
  split; [apply SW|]. split; [rewrite !length_R; cbn; now rewrite edist_sym|].
  split; [easy|]. split; [easy|]. split; [intros q; unfold Segment2D_reversed_segment; rewrite SW; easy|].
  split; [reflexivity|]. split; [easy|].
  unfold Segment2D_is_valid, Vector2D_equals_weakly; rnum. rewrite negb_false_iff, andb_true_iff, !Rlt_bool_iff. easy.
Qed.
(** direction() and length() are the polar form of terminal - origin; a segment
    of almost no extent has direction 0. *)
Theorem C39_direction_R : forall s : seg R, exists d l,
  Segment2D_direction s = Ok d /\ Segment2D_length s = Ok l /\ -180 <= a_degree d <= 180 /\
  (~ tiny (vx (s_terminal s) - vx (s_origin s)) (vy (s_terminal s) - vy (s_origin s)) ->
     pt (s_terminal s) = (vx (s_origin s) + l * cos (rad (a_degree d)), vy (s_origin s) + l * sin (rad (a_degree d)))) /\
  (tiny (vx (s_terminal s) - vx (s_origin s)) (vy (s_terminal s) - vy (s_origin s)) -> a_degree d = 0).
Proof.
  intros s. set (v := Vector2D_sub (s_terminal s) (s_origin s)).
  assert (EV : vx v = vx (s_terminal s) - vx (s_origin s) /\ vy v = vy (s_terminal s) - vy (s_origin s)) by easy.
  exists (mkAngle (atan2_deg (vy v) (vx v))), (edist (pt (s_origin s)) (pt (s_terminal s))).
  unfold Segment2D_direction. fold v. rewrite th_R, length_R. split; [easy|]. split; [easy|]. cbn [a_degree].
  destruct (C09_atan2_R (vy v) (vx v)) as (HR & HT & HP). split; [lra|]. destruct EV as [<- <-]. split; [|exact HT].
  intros Hn. destruct (HP Hn) as [H1 H2].
  replace (edist (pt (s_origin s)) (pt (s_terminal s))) with (norm (vx v, vy v)).
  2: { rewrite edist_sym. unfold edist. f_equal. }
  unfold pt. apply point_eq; cbn [px py fst snd]; [rewrite <- H1|rewrite <- H2]; unfold v, Vector2D_sub, V; rnum; cbn [vx vy]; ring.
Qed.
Example C39_direction_nonvacuous : let s := mkSeg (mkVec 1 2 true) (mkVec 1 5 true) in
  ~ tiny (vx (s_terminal s) - vx (s_origin s)) (vy (s_terminal s) - vy (s_origin s)).
Proof. intros s [_ H]. cbn in H. rewrite Rabs_pos_eq in H by lra. lra. Qed.
(** The constructors build the segment they say. *)
Theorem C39_ctor_R : forall (p q : vec R) (l : R) (a : angle R),
  (exists s, Segment2D_init [VVec p; VVec q] = Ok s /\ pt (s_origin s) = pt p /\ pt (s_terminal s) = pt q) /\
  (exists s, Segment2D_init [VVec p; VNum l; VAng a] = Ok s /\ pt (s_origin s) = pt p /\
     pt (s_terminal s) = (vx p + l * cos (rad (a_degree a)), vy p + l * sin (rad (a_degree a))) /\
     Segment2D_length s = Ok (Rabs l)).
Proof.
  intros. split; [eexists; repeat split; reflexivity|].
  cbn [Segment2D_init]. unfold Segment2D_of_polar. rewrite from_polar_R. cbn [bind].
  eexists; split; [reflexivity|]. split; [reflexivity|]. split; [reflexivity|].
  rewrite length_R. f_equal. rewrite edist_sym. unfold edist.
  replace (psub _ _) with (l * cos (rad (a_degree a)), l * sin (rad (a_degree a))); [apply norm_polar|].
  apply point_eq; unfold psub; cbn; ring.
Qed.
Example C35_nonvacuous : pt (mkVec 0 0 true) <> pt (mkVec 2 4 true) /\ spts (mkSeg (mkVec 0 0 true) (mkVec 2 4 true)) (1, 2).
Proof.
  split; [unfold pt; cbn; intros [=]; lra|]. exists (1/2). split; [lra|]. apply point_eq; unfold lerp; cbn; lra.
Qed.

(** on_segment_weakly accepts exactly the points within the 1e-6 box of their
    valid projection; in particular every point of the segment. *)
Theorem C38_on_segment_weakly_R : forall (s : seg R) (p : vec R),
  exists v b, Segment2D_projection s p = Ok v /\ Segment2D_on_segment_weakly s p = Ok b /\
    (edist (pt (s_origin s)) (pt (s_terminal s)) >= 1/1000000 ->
      (b = true <-> v_valid v = true /\ tiny (vx p - vx v) (vy p - vy v)) /\
      (spts s (pt p) -> b = true)).
Proof.
  intros s p. destruct (C38_projection_R s p) as (v & Hv & _ & H2 & H3 & _).
  exists v. unfold Segment2D_on_segment_weakly. rewrite Hv. cbn [bind]. eexists. split; [easy|]. split; [reflexivity|].
  intros Hl.
  assert (E : (v_valid v && Vector2D_equals_weakly p v = true) <-> v_valid v = true /\ tiny (vx p - vx v) (vy p - vy v)).
  { unfold Vector2D_equals_weakly, tiny; rnum. rewrite !andb_true_iff, !Rlt_bool_iff. easy. }
  split; [exact E|]. intros (t & Ht & Et). apply E.
  set (a := pt (s_origin s)) in *. set (b := pt (s_terminal s)) in *. set (len := edist a b) in *.
  assert (Hll : len * len = norm2 (psub b a)).
  { unfold len. rewrite edist_sym. unfold edist. apply norm_sq. }
  assert (Eip : dot (psub b a) (psub (pt p) a) / len = t * len).
  { rewrite Et. replace (dot (psub b a) (psub (lerp a b t) a)) with (t * norm2 (psub b a)) by (unfold dot, psub, lerp, norm2; cbn; ring).
    rewrite <- Hll. field. lra. }
  rewrite Eip in *.
  assert (V : v_valid v = true) by (apply (H2 Hl); nra).
  split; [exact V|]. destruct (H3 Hl V) as [Ev _].
  replace (t * len / len) with t in Ev by (field; lra). rewrite <- Et in Ev. injection Ev as Ex Ey.
  rewrite Ex, Ey. unfold tiny. rewrite !Rminus_diag_eq, Rabs_R0 by easy. lra.
Qed.
