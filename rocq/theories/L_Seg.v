(** * L_Seg: geometry of segments (model-independent) and the segment tests *)
From Coq Require Import ZArith List Bool String Reals Lra Lia Psatz.
From Flocq Require Import Core.
From Verif Require Import Base Types NumR R_Tac Spec Abs M_Angle M_Vector M_Line M_Triangle M_Segment
  L_Angle L_Trig P_Angle P_Vector P_Line.
Import ListNotations.
Local Open Scope R_scope.

Definition area2 (a b c : point) : R := cross (psub b a) (psub c a).

Lemma dsa_R a b c : double_signed_area_st a b c = area2 (pt a) (pt b) (pt c).
Proof. unfold double_signed_area_st, area2, cross, psub; rnum; cbn. ring. Qed.

Lemma veq_R a b : Vector2D_eq a b = true <-> pt a = pt b.
Proof. apply C17_eq_ignores_flag_R; exact b. Qed.
Lemma veq_false_R a b : Vector2D_eq a b = false <-> pt a <> pt b.
Proof. rewrite <- not_true_iff_false, veq_R. easy. Qed.

Lemma area2_lerp a b c d t : area2 a b (lerp c d t) = (1 - t) * area2 a b c + t * area2 a b d.
Proof. unfold area2, cross, psub, lerp; cbn. ring. Qed.
Lemma area2_line a b t : area2 a b (lerp a b t) = 0.
Proof. unfold area2, cross, psub, lerp; cbn. ring. Qed.
Lemma lerp_0 p q : lerp p q 0 = p.
Proof. apply point_eq; unfold lerp; cbn; ring. Qed.
Lemma lerp_1 p q : lerp p q 1 = q.
Proof. apply point_eq; unfold lerp; cbn; ring. Qed.
Lemma lerp_same p t : lerp p p t = p.
Proof. apply point_eq; unfold lerp; cbn; ring. Qed.
Lemma lerp_swap p q t : lerp p q t = lerp q p (1 - t).
Proof. apply point_eq; unfold lerp; cbn; ring. Qed.
Lemma on_seg_swap p q r : on_seg p q r -> on_seg q p r.
Proof. intros [t [Ht ->]]. exists (1 - t). split; [lra|apply lerp_swap]. Qed.
Lemma on_seg_l p q : on_seg p q p.
Proof. exists 0; split; [lra|now rewrite lerp_0]. Qed.
Lemma on_seg_r p q : on_seg p q q.
Proof. exists 1; split; [lra|now rewrite lerp_1]. Qed.
Lemma on_seg_same p r : on_seg p p r -> r = p.
Proof. intros [t [_ ->]]. apply lerp_same. Qed.

Lemma lerp_inj p q t u : p <> q -> lerp p q t = lerp p q u -> t = u.
Proof.
  intros H E. assert (E1 := f_equal px E). assert (E2 := f_equal py E). unfold lerp in *; cbn in *.
  destruct (Req_dec (px p) (px q)) as [X|X].
  - destruct (Req_dec (py p) (py q)) as [Y|Y]; [exfalso; apply H; now apply point_eq|].
    apply Rmult_eq_reg_r with (py q - py p); lra.
  - apply Rmult_eq_reg_r with (px q - px p); lra.
Qed.

Lemma collinear_param p q r : p <> q -> area2 p q r = 0 -> exists t, r = lerp p q t.
Proof. intros H K. now apply (collinear_on_line2 p q r H). Qed.

(** between, in one coordinate *)
Definition btw (a b x : R) : Prop := (a <= x <= b) \/ (b <= x <= a).
Lemma btw_param a b t : a <> b -> (btw a b (a + t * (b - a)) <-> 0 <= t <= 1).
Proof.
  intros H. unfold btw. split.
  - intros [[H1 H2]|[H1 H2]]; split; nra.
  - intros [H1 H2]. destruct (Rlt_dec a b); [left|right]; nra.
Qed.

Lemma check_R s p : pt (s_origin s) <> pt (s_terminal s) ->
  area2 (pt (s_origin s)) (pt (s_terminal s)) (pt p) = 0 ->
  (check_intersects_on_line s p = true <-> spts s (pt p)).
Proof.
  intros Hne Hc. destruct (collinear_param _ _ _ Hne Hc) as [t Ht].
  assert (Hx : vx p = vx (s_origin s) + t * (vx (s_terminal s) - vx (s_origin s))) by (now injection Ht).
  assert (Hy : vy p = vy (s_origin s) + t * (vy (s_terminal s) - vy (s_origin s))) by (now injection Ht).
  assert (HS : spts s (pt p) <-> 0 <= t <= 1).
  { unfold spts, on_seg. split.
    - intros [u [Hu E]]. rewrite Ht in E. apply lerp_inj in E; [|easy]. lra.
    - intros H; exists t; now split. }
  rewrite HS. unfold check_intersects_on_line; rnum.
  destruct (Req_bool_spec (vx (s_origin s)) (vx (s_terminal s))) as [E|E].
  - assert (vy (s_origin s) <> vy (s_terminal s)).
    { intros E'. apply Hne. unfold pt; now rewrite E, E'. }
    rewrite <- (btw_param (vy (s_origin s)) (vy (s_terminal s)) t) by easy. rewrite <- Hy.
    rewrite orb_true_iff, !andb_true_iff, !Rle_bool_iff. unfold btw. tauto.
  - rewrite <- (btw_param (vx (s_origin s)) (vx (s_terminal s)) t) by easy. rewrite <- Hx.
    rewrite orb_true_iff, !andb_true_iff, !Rle_bool_iff. unfold btw. tauto.
Qed.

Lemma on_seg_area p q r : on_seg p q r -> area2 p q r = 0.
Proof. intros [t [_ ->]]. apply area2_line. Qed.

(** Parameters of the crossing of lines [a b] and [c d]. *)
Lemma crossing a b c d :
  let a0 := area2 a b c in let a1 := area2 a b d in
  let b0 := area2 c d a in let b1 := area2 c d b in
  a0 - a1 <> 0 ->
  lerp c d (a0 / (a0 - a1)) = lerp a b (b0 / (b0 - b1)).
Proof.
  intros a0 a1 b0 b1 H.
  assert (E : b0 - b1 = - (a0 - a1)) by (unfold a0, a1, b0, b1, area2, cross, psub; cbn; ring).
  rewrite E.
  assert (Kx : (a0 - a1) * px c + a0 * (px d - px c) = (a0 - a1) * px a - b0 * (px b - px a))
    by (unfold a0, a1, b0, area2, cross, psub; cbn; ring).
  assert (Ky : (a0 - a1) * py c + a0 * (py d - py c) = (a0 - a1) * py a - b0 * (py b - py a))
    by (unfold a0, a1, b0, area2, cross, psub; cbn; ring).
  apply point_eq; unfold lerp; cbn.
  - transitivity (((a0 - a1) * px c + a0 * (px d - px c)) / (a0 - a1)); [now field|].
    rewrite Kx. now field.
  - transitivity (((a0 - a1) * py c + a0 * (py d - py c)) / (a0 - a1)); [now field|].
    rewrite Ky. now field.
Qed.
Lemma area_rel a b c d : area2 c d a - area2 c d b = - (area2 a b c - area2 a b d).
Proof. unfold area2, cross, psub; cbn; ring. Qed.

Lemma ratio_01 x y : x * y < 0 -> 0 < x / (x - y) < 1.
Proof.
  intros H. destruct (Rlt_dec 0 x) as [Hx|Hx].
  - assert (y < 0) by nra. split.
    + apply Rdiv_lt_0_compat; lra.
    + apply Rmult_lt_reg_r with (x - y); [lra|]. field_simplify; lra.
  - assert (x <> 0) by (intros E; rewrite E in H; lra). assert (x < 0) by lra. assert (0 < y) by nra.
    replace (x / (x - y)) with (-x / (y - x)) by (field; lra). split.
    + apply Rdiv_lt_0_compat; lra.
    + apply Rmult_lt_reg_r with (y - x); [lra|]. field_simplify; lra.
Qed.

Lemma proper_cross_exists a b c d :
  area2 a b c * area2 a b d < 0 -> area2 c d a * area2 c d b < 0 ->
  exists q, in_open_seg a b q /\ in_open_seg c d q.
Proof.
  intros H1 H2. exists (lerp c d (area2 a b c / (area2 a b c - area2 a b d))).
  assert (area2 a b c - area2 a b d <> 0) by nra.
  split.
  - rewrite crossing by easy. eexists; split; [|reflexivity]. now apply ratio_01.
  - eexists; split; [|reflexivity]. now apply ratio_01.
Qed.

(** Two segments that share a point and are not crossing properly have an end
    point of one on the other. *)
Lemma share_cases a b c d q : a <> b -> c <> d -> on_seg a b q -> on_seg c d q ->
  (area2 a b c * area2 a b d < 0 /\ area2 c d a * area2 c d b < 0) \/
  on_seg a b c \/ on_seg a b d \/ on_seg c d a \/ on_seg c d b.
Proof.
  intros Hab Hcd [u [Hu Eu]] [t [Ht Et]].
  destruct (Req_dec t 0) as [T0|T0].
  { right; left. subst t. rewrite lerp_0 in Et. subst c. exists u; auto. }
  destruct (Req_dec t 1) as [T1|T1].
  { right; right; left. subst t. rewrite lerp_1 in Et. subst d. exists u; auto. }
  destruct (Req_dec u 0) as [U0|U0].
  { right; right; right; left. subst u. rewrite lerp_0 in Eu. subst a. exists t; auto. }
  destruct (Req_dec u 1) as [U1|U1].
  { right; right; right; right. subst u. rewrite lerp_1 in Eu. subst b. exists t; auto. }
  assert (A : (1 - t) * area2 a b c + t * area2 a b d = 0).
  { rewrite <- area2_lerp, <- Et, Eu. apply area2_line. }
  assert (B : (1 - u) * area2 c d a + u * area2 c d b = 0).
  { rewrite <- area2_lerp, <- Eu, Et. apply area2_line. }
  pose proof (area_rel a b c d) as REL.
  destruct (Req_dec (area2 a b c) 0) as [Z|Z].
  - assert (Z1 : area2 a b d = 0) by nra. right.
    destruct (collinear_param a b c Hab Z) as [x Hx].
    destruct (collinear_param a b d Hab Z1) as [y Hy].
    assert (Hu' : u = x + t * (y - x)).
    { apply (lerp_inj a b); [easy|]. rewrite <- Eu, Et, Hx, Hy. apply point_eq; unfold lerp; cbn; ring. }
    destruct (Rle_dec 0 x) as [X0|X0]; [destruct (Rle_dec x 1) as [X1|X1]|].
    + left. exists x; auto.
    + destruct (Rle_dec 0 y) as [Y0|Y0]; [destruct (Rle_dec y 1) as [Y1|Y1]|].
      * right; left; exists y; auto.
      * nra.
      * right; right; left. exists (x / (x - y)). split.
        { split; [apply Rmult_le_pos; [lra|left; apply Rinv_0_lt_compat; lra]|].
          apply Rmult_le_reg_r with (x - y); [lra|]. field_simplify; lra. }
        rewrite Hx, Hy. apply point_eq; unfold lerp; cbn; field; lra.
    + destruct (Rle_dec 0 y) as [Y0|Y0]; [destruct (Rle_dec y 1) as [Y1|Y1]|].
      * right; left; exists y; auto.
      * right; right; left. exists (-x / (y - x)). split.
        { split; [apply Rmult_le_pos; [lra|left; apply Rinv_0_lt_compat; lra]|].
          apply Rmult_le_reg_r with (y - x); [lra|]. field_simplify; lra. }
        rewrite Hx, Hy. apply point_eq; unfold lerp; cbn; field; lra.
      * nra.
  - left. assert (0 < area2 a b c * area2 a b c) by nra.
    assert (K : area2 a b d = - ((1-t)/t) * area2 a b c) by (apply Rmult_eq_reg_l with t; [field_simplify; lra|lra]).
    assert (0 < (1-t)/t) by (apply Rdiv_lt_0_compat; lra).
    assert (P1 : area2 a b c * area2 a b d < 0) by (rewrite K; nra).
    split; [exact P1|].
    assert (Zb : area2 c d a <> 0).
    { intros E. assert (area2 c d b = 0) by nra. assert (area2 a b c = area2 a b d) by lra. nra. }
    assert (0 < area2 c d a * area2 c d a) by nra.
    assert (K' : area2 c d b = - ((1-u)/u) * area2 c d a) by (apply Rmult_eq_reg_l with u; [field_simplify; lra|lra]).
    assert (0 < (1-u)/u) by (apply Rdiv_lt_0_compat; lra).
    rewrite K'; nra.
Qed.

Lemma chk s p a b q : a = pt (s_origin s) -> b = pt (s_terminal s) -> q = pt p -> a <> b ->
  (area2 a b q = 0 /\ check_intersects_on_line s p = true <-> on_seg a b q).
Proof.
  intros -> -> -> H. split.
  - intros [H1 H2]. now apply check_R in H2.
  - intros K. pose proof (on_seg_area _ _ _ K). split; [easy|]. now apply check_R.
Qed.

Lemma exist_intersection_seg_R s o :
  Segment2D_exist_intersection_seg s o = true <-> exists q, spts s q /\ spts o q.
Proof.
  unfold Segment2D_exist_intersection_seg. rewrite !dsa_R. rnum.
  set (a := pt (s_origin s)). set (b := pt (s_terminal s)).
  set (c := pt (s_origin o)). set (d := pt (s_terminal o)).
  destruct (Rlt_bool_spec (area2 a b c * area2 a b d) 0) as [P1|P1];
  destruct (Rlt_bool_spec (area2 c d a * area2 c d b) 0) as [P2|P2]; cbn [andb].
  { split; [intros _|easy]. destruct (proper_cross_exists _ _ _ _ P1 P2) as [q [[u [Hu E]] [t [Ht E']]]].
    exists q; split; [exists u|exists t]; (split; [lra|easy]). }
  all: destruct (Vector2D_eq (s_origin s) (s_terminal s)) eqn:E1;
    [apply veq_R in E1; fold a b in E1|apply veq_false_R in E1; fold a b in E1];
    (destruct (Vector2D_eq (s_origin o) (s_terminal o)) eqn:E2;
    [apply veq_R in E2; fold c d in E2|apply veq_false_R in E2; fold c d in E2]).
  (* both degenerate *)
  1,5,9: rewrite veq_R; fold a c; unfold spts; fold a b c d; rewrite <- E1, <- E2; split;
    [ intros E; rewrite E; exists c; split; apply on_seg_l
    | intros [q [H1 H2]]; apply on_seg_same in H1; apply on_seg_same in H2; congruence ].
  (* first degenerate *)
  1,4,7: rewrite andb_true_iff, Req_bool_iff;
    rewrite (chk o (s_origin s) c d a eq_refl eq_refl eq_refl E2); unfold spts; fold a b c d; rewrite <- E1; split;
    [ intros H; exists a; split; [apply on_seg_l|easy]
    | intros [q [H1 H2]]; apply on_seg_same in H1; now subst q ].
  (* second degenerate *)
  1,3,5: rewrite andb_true_iff, Req_bool_iff;
    rewrite (chk s (s_origin o) a b c eq_refl eq_refl eq_refl E1); unfold spts; fold a b c d; rewrite <- E2; split;
    [ intros H; exists c; split; [easy|apply on_seg_l]
    | intros [q [H1 H2]]; apply on_seg_same in H2; now subst q ].
  (* general *)
  all: rewrite !orb_true_iff, !andb_true_iff, !Req_bool_iff;
    rewrite (chk s (s_origin o) a b c eq_refl eq_refl eq_refl E1), (chk s (s_terminal o) a b d eq_refl eq_refl eq_refl E1),
      (chk o (s_origin s) c d a eq_refl eq_refl eq_refl E2), (chk o (s_terminal s) c d b eq_refl eq_refl eq_refl E2); unfold spts; fold a b c d; split;
    [ intros [[[H|H]|H]|H];
      [exists c; split; [easy|apply on_seg_l] | exists d; split; [easy|apply on_seg_r]
      | exists a; split; [apply on_seg_l|easy] | exists b; split; [apply on_seg_r|easy] ]
    | intros [q [H1 H2]]; destruct (share_cases a b c d q E1 E2 H1 H2) as [[K1 K2]|[K|[K|[K|K]]]]; try tauto; exfalso; lra ].
Qed.

(** ** Distances *)
Lemma norm2_to_lerp p a b t :
  norm2 (psub p (lerp a b t)) =
  norm2 (psub p a) - 2 * t * dot (psub b a) (psub p a) + t * t * norm2 (psub b a).
Proof. unfold norm2, psub, lerp, dot; cbn; ring. Qed.

Lemma seg_nearest p a b :
  let ip := dot (psub b a) (psub p a) in let l2 := norm2 (psub b a) in
  exists t, 0 <= t <= 1 /\
    (forall u, 0 <= u <= 1 -> norm2 (psub p (lerp a b t)) <= norm2 (psub p (lerp a b u))) /\
    (l2 = 0 -> t = 0) /\ (l2 <> 0 -> ip <= 0 -> t = 0) /\ (l2 <> 0 -> 0 < ip -> l2 <= ip -> t = 1) /\
    (l2 <> 0 -> 0 < ip < l2 -> t = ip / l2).
Proof.
  intros ip l2. pose proof (norm2_nonneg (psub b a)) as HL. fold l2 in HL.
  destruct (Req_dec l2 0) as [Z|Z].
  { exists 0. split; [lra|]. split; [|repeat split; intros; try lra].
    intros u Hu. rewrite !norm2_to_lerp. fold ip l2. rewrite Z.
    assert (ip = 0).
    { unfold l2, norm2 in Z. unfold ip, dot. assert (px (psub b a) = 0) by nra. assert (py (psub b a) = 0) by nra.
      rewrite H, H0; ring. }
    rewrite H. lra. }
  destruct (Rle_dec ip 0) as [I0|I0].
  { exists 0. split; [lra|]. split; [|repeat split; intros; try lra].
    intros u Hu. rewrite !norm2_to_lerp. fold ip l2. nra. }
  destruct (Rle_dec l2 ip) as [I1|I1].
  { exists 1. split; [lra|]. split; [|repeat split; intros; try lra].
    intros u Hu. rewrite !norm2_to_lerp. fold ip l2.
    assert (0 <= (1-u)*(ip-l2)) by (apply Rmult_le_pos; lra).
    assert (0 <= (1-u)*(1-u)*l2) by (apply Rmult_le_pos; [apply Rle_0_sqr|lra]). lra. }
  exists (ip / l2). split; [|split; [|repeat split; intros; try lra]].
  - split; [apply Rmult_le_pos; [lra|left; apply Rinv_0_lt_compat; lra]|].
    apply Rmult_le_reg_r with l2; [lra|]. field_simplify; lra.
  - intros u Hu. rewrite !norm2_to_lerp. fold ip l2.
    assert (0 <= l2 * ((u - ip/l2) * (u - ip/l2))) by (apply Rmult_le_pos; [lra|apply Rle_0_sqr]).
    replace (l2 * ((u - ip / l2) * (u - ip / l2))) with (u*u*l2 - 2*u*ip + ip*ip/l2) in H by (field; lra).
    replace (2 * (ip/l2) * ip) with (2 * (ip*ip/l2)) by (field; lra).
    replace (ip/l2 * (ip/l2) * l2) with (ip*ip/l2) by (field; lra). lra.
Qed.

Lemma norm2_zero u : norm2 u = 0 -> u = (0,0).
Proof. unfold norm2; intros. apply point_eq; cbn; nra. Qed.
Lemma psub_zero p q : norm2 (psub p q) = 0 -> p = q.
Proof. intros H. apply norm2_zero in H. injection H. intros. apply point_eq; lra. Qed.

Lemma nearest_point_R s p : exists v, Segment2D_nearest_point s p = Ok v /\
  spts s (pt v) /\ forall q, spts s q -> edist (pt p) (pt v) <= edist (pt p) q.
Proof.
  set (a := pt (s_origin s)). set (b := pt (s_terminal s)).
  destruct (seg_nearest (pt p) a b) as (t & Ht & Hmin & H0 & H1 & H2 & H3).
  assert (K : forall v, pt v = lerp a b t -> spts s (pt v) /\ forall q, spts s q -> edist (pt p) (pt v) <= edist (pt p) q).
  { intros v E. rewrite E. split; [exists t; now split|].
    intros q [u [Hu ->]]. apply edist_le. now apply Hmin. }
  unfold Segment2D_nearest_point; rnum. unfold Vector2D_r2, Vector2D_inner_product, Vector2D_sub, V; rnum; cbn [vx vy].
  set (l2 := norm2 (psub b a)) in *. set (ip := dot (psub b a) (psub (pt p) a)) in *.
  change (Req_bool _ 0) with (Req_bool l2 0).
  destruct (Req_bool_spec l2 0) as [E|E].
  { eexists; split; [reflexivity|]. apply K. rewrite H0 by easy. now rewrite lerp_0. }
  match goal with |- context [Rle_bool ?x 0] => change x with ip end.
  destruct (Rle_bool_spec ip 0) as [E1|E1].
  { eexists; split; [reflexivity|]. apply K. rewrite H1 by easy. now rewrite lerp_0. }
  match goal with |- context [Rle_bool ?x ?y] => change (Rle_bool x y) with (Rle_bool l2 ip) end.
  destruct (Rle_bool_spec l2 ip) as [E2|E2].
  { eexists; split; [reflexivity|]. apply K. rewrite H2 by easy. now rewrite lerp_1. }
  unfold Vector2D_truediv, Vector2D_mul, V; rnum; cbn [vx vy].
  match goal with |- context [Rdiv_py (_ * ?x) ?y] => change x with ip; change y with l2 end.
  rewrite !Rdiv_py_ok by easy. eexists; split; [reflexivity|]. apply K.
  rewrite H3 by (easy || lra). unfold Vector2D_add, V; rnum; cbn [vx vy pt].
  apply point_eq; unfold lerp; cbn; field; easy.
Qed.

Lemma length_R s : Segment2D_length s = Ok (edist (pt (s_origin s)) (pt (s_terminal s))).
Proof. apply dist_R. Qed.

Lemma dist_point_R s p : exists d, Segment2D_dist_point s p = Ok d /\ is_min_dist (spts s) (pt p) d.
Proof.
  set (a := pt (s_origin s)). set (b := pt (s_terminal s)).
  destruct (seg_nearest (pt p) a b) as (t & Ht & Hmin & H0 & H1 & H2 & H3).
  set (l2 := norm2 (psub b a)) in *. set (ip := dot (psub b a) (psub (pt p) a)) in *.
  assert (K : is_min_dist (spts s) (pt p) (edist (pt p) (lerp a b t))).
  { split; [exists (lerp a b t); split; [exists t; now split|easy]|].
    intros q [u [Hu ->]]. apply edist_le. now apply Hmin. }
  assert (K' : forall d, d = edist (pt p) (lerp a b t) -> is_min_dist (spts s) (pt p) d) by (intros; now subst).
  unfold Segment2D_dist_point. rewrite length_R. fold a b. cbn [bind]. rnum.
  set (len := edist a b).
  assert (Hlen : len * len = l2).
  { unfold len, edist. rewrite norm_sq. unfold l2, norm2, psub; cbn; ring. }
  assert (Hlen0 : 0 <= len) by apply edist_nonneg.
  destruct (Req_bool_spec len 0) as [E|E].
  { rewrite dist_R. eexists; split; [reflexivity|]. apply K'.
    rewrite H0 by (rewrite <- Hlen, E; ring). rewrite lerp_0. fold a. apply edist_sym. }
  assert (Hl2' : 0 < l2) by (rewrite <- Hlen; apply Rmult_lt_0_compat; lra).
  assert (Hl2 : l2 <> 0) by lra.
  unfold Vector2D_inner_product, Vector2D_sub, V; rnum; cbn [vx vy].
  match goal with |- context [Rle_bool 0 ?x] => change x with ip end.
  rewrite Hlen.
  destruct (Rle_bool_spec 0 ip) as [I0|I0]; [destruct (Rle_bool_spec ip l2) as [I1|I1]|]; cbn [andb].
  { rewrite Rdiv_py_ok by easy. rewrite dsa_R. fold a b. eexists; split; [reflexivity|]. apply K'.
    assert (Et : t = ip / l2).
    { destruct (Req_dec ip 0) as [Z|Z]. rewrite H1 by (easy || lra). rewrite Z; field; easy.
      destruct (Req_dec ip l2) as [Z'|Z']. rewrite H2 by (easy || lra). rewrite Z'; field; easy.
      apply H3; [easy|lra]. }
    rewrite Et. unfold edist, norm. rewrite norm2_to_lerp. fold ip l2.
    rewrite <- sqrt_Rsqr_abs. f_equal. unfold Rsqr.
    replace (area2 a b (pt p) / len * (area2 a b (pt p) / len)) with (area2 a b (pt p) * area2 a b (pt p) / l2)
      by (rewrite <- Hlen; field; easy).
    replace (norm2 (psub (pt p) a) - 2 * (ip / l2) * ip + ip / l2 * (ip / l2) * l2)
      with ((norm2 (psub (pt p) a) * l2 - ip * ip) / l2) by (field; easy).
    f_equal. unfold area2, ip, l2, norm2, dot, cross. ring. }
  all: rewrite !dist2_R; unfold nmin; rnum; fold a b.
  all: assert (EX : norm2 (psub b (pt p)) = norm2 (psub a (pt p)) - 2 * ip + l2)
     by (unfold norm2, ip, l2, norm2, dot, psub; cbn; ring).
  - rewrite Rlt_bool_true by lra. rewrite Rsqrt_py_ok by apply norm2_nonneg.
    eexists; split; [reflexivity|]. apply K'. rewrite H2 by (easy || lra). rewrite lerp_1.
    now rewrite edist_sym.
  - rewrite Rlt_bool_false. 2:{ pose proof (norm2_nonneg (psub b a)). fold l2 in H. lra. }
    rewrite Rsqrt_py_ok by apply norm2_nonneg.
    eexists; split; [reflexivity|]. apply K'. rewrite H1 by (easy || lra). rewrite lerp_0.
    now rewrite edist_sym.
Qed.

(** ** Segment-segment distance *)
Lemma exit_1d u u' : 0 <= u <= 1 -> exists l, 0 <= l <= 1 /\
  (forall k, 0 <= k <= l -> 0 <= u + k * (u' - u) <= 1) /\
  ((l = 1 /\ 0 <= u' <= 1) \/ u + l * (u' - u) = 0 \/ u + l * (u' - u) = 1).
Proof.
  intros Hu. destruct (Rlt_dec u' 0) as [H|H]; [|destruct (Rlt_dec 1 u') as [H'|H']].
  - exists (u / (u - u')).
    assert (E : u + u / (u - u') * (u' - u) = 0) by (field; lra).
    split; [|split].
    + split; [apply Rmult_le_pos; [lra|left; apply Rinv_0_lt_compat; lra]|].
      apply Rmult_le_reg_r with (u - u'); [lra|]. field_simplify; lra.
    + intros k [K1 K2]. split; [|nra].
      assert (k * (u - u') <= u). { apply Rmult_le_compat_r with (r := u - u') in K2; [|lra].
        replace (u / (u - u') * (u - u')) with u in K2 by (field; lra). lra. } nra.
    + right; left; exact E.
  - exists ((1 - u) / (u' - u)).
    assert (E : u + (1 - u) / (u' - u) * (u' - u) = 1) by (field; lra).
    split; [|split].
    + split; [apply Rmult_le_pos; [lra|left; apply Rinv_0_lt_compat; lra]|].
      apply Rmult_le_reg_r with (u' - u); [lra|]. field_simplify; lra.
    + intros k [K1 K2]. split; [nra|].
      assert (k * (u' - u) <= 1 - u). { apply Rmult_le_compat_r with (r := u' - u) in K2; [|lra].
        replace ((1 - u) / (u' - u) * (u' - u)) with (1 - u) in K2 by (field; lra). lra. } nra.
    + right; right; exact E.
  - exists 1. split; [lra|]. split; [|left; lra]. intros k Hk. split; nra.
Qed.
Lemma exit_2d u t u' t' : 0 <= u <= 1 -> 0 <= t <= 1 -> ~ (0 <= u' <= 1 /\ 0 <= t' <= 1) ->
  exists l, 0 <= l <= 1 /\
   let x := u + l * (u' - u) in let y := t + l * (t' - t) in
   0 <= x <= 1 /\ 0 <= y <= 1 /\ (x = 0 \/ x = 1 \/ y = 0 \/ y = 1).
Proof.
  intros Hu Ht Hn. destruct (exit_1d u u' Hu) as (l & Hl & Hk & He).
  destruct (exit_1d t t' Ht) as (m & Hm & Hk' & He').
  destruct (Rle_dec l m) as [L|L].
  - destruct He as [[E1 E2]|He].
    + destruct He' as [[E1' E2']|He']; [tauto|].
      assert (m = l) by lra. subst m. exists l. split; [easy|]. cbv zeta.
      split; [apply Hk; lra|]. split; [apply Hk'; lra|tauto].
    + exists l. split; [easy|]. cbv zeta. split; [apply Hk; lra|]. split; [apply Hk'; lra|tauto].
  - destruct He' as [[E1' E2']|He']; [exfalso; lra|].
    exists m. split; [easy|]. cbv zeta. split; [apply Hk; lra|]. split; [apply Hk'; lra|tauto].
Qed.

(** Disjoint segments: for any two points there is a pair at most as far apart
    with one of them an end point. *)
Lemma disjoint_boundary a b c d u t : 0 <= u <= 1 -> 0 <= t <= 1 ->
  ~ (exists q, on_seg a b q /\ on_seg c d q) ->
  exists x y, 0 <= x <= 1 /\ 0 <= y <= 1 /\ (x = 0 \/ x = 1 \/ y = 0 \/ y = 1) /\
    norm2 (psub (lerp a b x) (lerp c d y)) <= norm2 (psub (lerp a b u) (lerp c d t)).
Proof.
  intros Hu Ht Hdis.
  pose (a0 := area2 a b c). pose (a1 := area2 a b d). pose (b0 := area2 c d a). pose (b1 := area2 c d b).
  destruct (Req_dec (a0 - a1) 0) as [Z|Z].
  - (* parallel: move along the kernel of (u,t) -> u e - t g *)
    assert (HK : exists du dt, ~ (du = 0 /\ dt = 0) /\
       du * (px b - px a) = dt * (px d - px c) /\ du * (py b - py a) = dt * (py d - py c)).
    { unfold a0, a1, area2, cross, psub in Z; cbn in Z.
      destruct (Req_dec (px d - px c) 0) as [X|X]; [destruct (Req_dec (py d - py c) 0) as [Y|Y]|].
      - exists 0, 1. split; [lra|]. lra.
      - exists (py d - py c), (py b - py a). split; [lra|]. split; [|ring].
        rewrite X. assert (px b - px a = 0) by nra. nra.
      - exists (px d - px c), (px b - px a). split; [lra|]. split; [ring|]. nra. }
    destruct HK as (du & dt & Hn & Kx & Ky).
    assert (Hout : exists k, ~ (0 <= u + k * du <= 1 /\ 0 <= t + k * dt <= 1)).
    { destruct (Req_dec du 0) as [E|E].
      - assert (dt <> 0) by tauto. exists (2 / dt). replace (2/dt*dt) with 2 by (field; easy). lra.
      - exists (2 / du). replace (2/du*du) with 2 by (field; easy). lra. }
    destruct Hout as [k Hout].
    destruct (exit_2d u t (u + k * du) (t + k * dt) Hu Ht Hout) as (l & Hl & Hx & Hy & Hb).
    exists (u + l * (u + k * du - u)), (t + l * (t + k * dt - t)). split; [easy|]. split; [easy|]. split; [easy|].
    right. unfold norm2, psub, lerp; cbn.
    assert (E1 : px a + (u + l * (u + k * du - u)) * (px b - px a) - (px c + (t + l * (t + k * dt - t)) * (px d - px c))
      = px a + u * (px b - px a) - (px c + t * (px d - px c)) + l * k * (du * (px b - px a) - dt * (px d - px c))) by ring.
    assert (E2 : py a + (u + l * (u + k * du - u)) * (py b - py a) - (py c + (t + l * (t + k * dt - t)) * (py d - py c))
      = py a + u * (py b - py a) - (py c + t * (py d - py c)) + l * k * (du * (py b - py a) - dt * (py d - py c))) by ring.
    rewrite E1, E2, Kx, Ky. ring.
  - pose proof (crossing a b c d Z) as HC. cbv zeta in HC. fold a0 a1 b0 b1 in HC.
    set (u' := b0 / (b0 - b1)) in *. set (t' := a0 / (a0 - a1)) in *.
    assert (Hout : ~ (0 <= u' <= 1 /\ 0 <= t' <= 1)).
    { intros [H1 H2]. apply Hdis. exists (lerp c d t'). split; [exists u'|exists t']; now split. }
    destruct (exit_2d u t u' t' Hu Ht Hout) as (l & Hl & Hx & Hy & Hb).
    exists (u + l * (u' - u)), (t + l * (t' - t)). split; [easy|]. split; [easy|]. split; [easy|].
    assert (C1 := f_equal px HC). assert (C2 := f_equal py HC). unfold lerp in C1, C2; cbn in C1, C2.
    unfold norm2, psub, lerp; cbn.
    set (X := px a + u * (px b - px a) - (px c + t * (px d - px c))).
    set (Y := py a + u * (py b - py a) - (py c + t * (py d - py c))).
    assert (E1 : px a + (u + l * (u' - u)) * (px b - px a) - (px c + (t + l * (t' - t)) * (px d - px c)) = (1 - l) * X).
    { unfold X. transitivity ((1 - l) * (px a + u * (px b - px a) - (px c + t * (px d - px c)))
        + l * (px a + u' * (px b - px a) - (px c + t' * (px d - px c)))); [ring|]. rewrite C1. ring. }
    assert (E2 : py a + (u + l * (u' - u)) * (py b - py a) - (py c + (t + l * (t' - t)) * (py d - py c)) = (1 - l) * Y).
    { unfold Y. transitivity ((1 - l) * (py a + u * (py b - py a) - (py c + t * (py d - py c)))
        + l * (py a + u' * (py b - py a) - (py c + t' * (py d - py c)))); [ring|]. rewrite C2. ring. }
    rewrite E1, E2.
    replace ((1 - l) * X * ((1 - l) * X) + (1 - l) * Y * ((1 - l) * Y)) with ((1-l)*(1-l) * (X*X+Y*Y)) by ring.
    clear -Hl. assert (0 <= X*X+Y*Y) by (pose proof (Rle_0_sqr X); pose proof (Rle_0_sqr Y); unfold Rsqr in *; lra).
    assert ((1-l)*(1-l) <= 1) by nra.
    rewrite <- (Rmult_1_l (X*X+Y*Y)) at 2. now apply Rmult_le_compat_r.
Qed.

Lemma nmin_R a b : nmin a b = Rmin a b.
Proof. unfold nmin, Rmin; rnum. case Rlt_bool_spec; destruct Rle_dec; intros; lra. Qed.
Lemma nmax_R a b : nmax a b = Rmax a b.
Proof. unfold nmax, Rmax; rnum. case Rlt_bool_spec; destruct Rle_dec; intros; lra. Qed.

Lemma dist_seg_R s o : exists d, Segment2D_dist_seg s o = Ok d /\ is_set_dist (spts s) (spts o) d.
Proof.
  unfold Segment2D_dist_seg.
  destruct (Segment2D_exist_intersection_seg s o) eqn:E.
  - apply exist_intersection_seg_R in E. destruct E as [q [H1 H2]].
    eexists; split; [reflexivity|]. rnum. split.
    + exists q, q. split; [easy|]. split; [easy|apply edist_refl].
    + intros; apply edist_nonneg.
  - assert (Hdis : ~ exists q, spts s q /\ spts o q).
    { intros H. apply exist_intersection_seg_R in H. congruence. }
    destruct (dist_point_R s (s_origin o)) as (d1 & -> & [M1 L1]).
    destruct (dist_point_R s (s_terminal o)) as (d2 & -> & [M2 L2]).
    destruct (dist_point_R o (s_origin s)) as (d3 & -> & [M3 L3]).
    destruct (dist_point_R o (s_terminal s)) as (d4 & -> & [M4 L4]).
    cbn [bind]. eexists; split; [reflexivity|]. rewrite !nmin_R.
    set (m := Rmin (Rmin (Rmin d1 d2) d3) d4).
    assert (Hm : m <= d1 /\ m <= d2 /\ m <= d3 /\ m <= d4).
    { unfold m. repeat split; unfold Rmin; repeat destruct Rle_dec; lra. }
    assert (Hc : m = d1 \/ m = d2 \/ m = d3 \/ m = d4).
    { unfold m. unfold Rmin; repeat destruct Rle_dec; auto. }
    split.
    + destruct M1 as [q1 [Q1 D1]], M2 as [q2 [Q2 D2]], M3 as [q3 [Q3 D3]], M4 as [q4 [Q4 D4]].
      destruct Hc as [Hc|[Hc|[Hc|Hc]]]; rewrite Hc.
      * exists q1, (pt (s_origin o)). split; [easy|]. split; [apply on_seg_l|]. now rewrite edist_sym.
      * exists q2, (pt (s_terminal o)). split; [easy|]. split; [apply on_seg_r|]. now rewrite edist_sym.
      * exists (pt (s_origin s)), q3. split; [apply on_seg_l|]. now split.
      * exists (pt (s_terminal s)), q4. split; [apply on_seg_r|]. now split.
    + intros p q [u [Hu Ep]] [t [Ht Eq]]. subst p q.
      destruct (disjoint_boundary (pt (s_origin s)) (pt (s_terminal s)) (pt (s_origin o)) (pt (s_terminal o)) u t Hu Ht Hdis)
        as (x & y & Hx & Hy & Hb & Hle).
      eapply Rle_trans; [|apply edist_le, Hle].
      destruct Hb as [->|[->|[->| ->]]]; rewrite ?lerp_0, ?lerp_1.
      * eapply Rle_trans; [|apply L3; exists y; now split]. lra.
      * eapply Rle_trans; [|apply L4; exists y; now split]. lra.
      * rewrite edist_sym. eapply Rle_trans; [|apply L1; exists x; now split]. lra.
      * rewrite edist_sym. eapply Rle_trans; [|apply L2; exists x; now split]. lra.
Qed.
