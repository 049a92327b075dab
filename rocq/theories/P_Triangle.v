(** * P_Triangle: properties C42-C48 of Triangle2D over ideal reals *)
From Coq Require Import ZArith List Bool String Reals Lra Lia Psatz.
From Flocq Require Import Core BinarySingleNaN.
From Verif Require Import Base Types NumR NumF R_Tac Spec Abs M_Angle M_Vector M_Line M_Ray M_Triangle M_Segment M_Triangle2
  L_Angle L_Trig P_Angle P_Vector P_Line L_Seg P_Segment P_Ray L_Float.
Import ListNotations.
Local Open Scope R_scope.

Definition vshift (d : point) (v : vec R) : vec R := mkVec (vx v + px d) (vy v + py d) (v_valid v).

(** ** C42 *)
Theorem C42_signed_area_R : forall (a b c : vec R) (d : point),
  let A := double_signed_area_st a b c in
  A = cross (psub (pt b) (pt a)) (psub (pt c) (pt a)) /\
  double_signed_area_st b c a = A /\ double_signed_area_st c a b = A /\
  double_signed_area_st b a c = - A /\ double_signed_area_st a c b = - A /\ double_signed_area_st c b a = - A /\
  double_signed_area_st (vshift d a) (vshift d b) (vshift d c) = A /\
  signed_area_st a b c = A / 2 /\
  (tri_ccw a b c = true <-> 0 < A) /\
  (let t := Triangle2D_of_points a b c in
   Triangle2D_area t = Rabs A / 2 /\ 0 <= Triangle2D_area t /\
   Triangle2D_double_signed_area t = A /\ Triangle2D_signed_area t = A / 2 /\
   Triangle2D_ccw t = tri_ccw a b c).
Proof.
  intros a b c d A. unfold A. repeat split.
  all: try (rewrite !dsa_R; unfold area2, cross, psub; cbn; ring).
  - unfold signed_area_st; rnum. field.
  - unfold tri_ccw; rnum. now rewrite Rlt_bool_iff.
  - unfold tri_ccw; rnum. now rewrite Rlt_bool_iff.
  - unfold Triangle2D_area, Triangle2D_of_points, Vector2D_outer_product; rnum; cbn.
    unfold Rdiv. f_equal; [|lra]. f_equal. unfold double_signed_area_st; rnum. ring.
  - unfold Triangle2D_area; rnum. apply Rmult_le_pos; [apply Rabs_pos|lra].
  - unfold Triangle2D_signed_area, signed_area_st; rnum. cbn. field.
Qed.
Example C42_nonvacuous : double_signed_area_st (mkVec 0 0 true) (mkVec 2 0 true) (mkVec 0 3 true) = 6.
Proof. rewrite dsa_R. unfold area2, cross, psub; cbn. ring. Qed.

(** ** C43 *)
Lemma tri_contains_R a b c p :
  tri_contains a b c p = true <->
  (0 <= area2 (pt p) (pt a) (pt b) /\ 0 <= area2 (pt p) (pt b) (pt c) /\ 0 <= area2 (pt p) (pt c) (pt a)) \/
  (area2 (pt p) (pt a) (pt b) <= 0 /\ area2 (pt p) (pt b) (pt c) <= 0 /\ area2 (pt p) (pt c) (pt a) <= 0).
Proof.
  unfold tri_contains, Vector2D_outer_product; rnum. rewrite orb_true_iff, !andb_true_iff, !Rle_bool_iff.
  unfold area2, cross, psub; cbn. tauto.
Qed.
Lemma area2_sum p a b c : area2 p a b + area2 p b c + area2 p c a = area2 a b c.
Proof. unfold area2, cross, psub; cbn. ring. Qed.
Theorem C43_contains_R : forall a b c p : vec R,
  let t := Triangle2D_of_points a b c in
  Triangle2D_contains t p = tri_contains a b c p /\
  (~ collinear (pt a) (pt b) (pt c) ->
     (Triangle2D_contains t p = true <-> in_triangle (pt a) (pt b) (pt c) (pt p))) /\
  (collinear (pt a) (pt b) (pt c) ->
     (Triangle2D_contains t p = true <->
        collinear (pt a) (pt b) (pt p) /\ collinear (pt b) (pt c) (pt p) /\ collinear (pt c) (pt a) (pt p))).
Proof.
  intros a b c p t. split; [reflexivity|].
  assert (E : Triangle2D_contains t p = true <-> tri_contains a b c p = true) by easy.
  rewrite E, tri_contains_R. clear E t.
  generalize (pt a) (pt b) (pt c) (pt p). intros A B C P.
  pose proof (area2_sum P A B C) as HS.
  change (collinear A B C) with (area2 A B C = 0).
  split.
  - intros HN. split.
    + intros H. exists (area2 P B C / area2 A B C), (area2 P C A / area2 A B C), (area2 P A B / area2 A B C).
      assert (SG : 0 <= area2 P B C / area2 A B C /\ 0 <= area2 P C A / area2 A B C /\ 0 <= area2 P A B / area2 A B C).
      { assert (Q : forall x y, (0 <= x /\ 0 < y) \/ (x <= 0 /\ y < 0) -> 0 <= x / y).
        { intros x y [[H1 H2]|[H1 H2]].
          - apply Rmult_le_pos; [easy|]. left; now apply Rinv_0_lt_compat.
          - replace (x / y) with ((-x) / (-y)) by (field; lra). apply Rmult_le_pos; [lra|]. left; apply Rinv_0_lt_compat; lra. }
        destruct H as [(H1 & H2 & H3)|(H1 & H2 & H3)]; repeat split; apply Q; lra. }
      destruct SG as (S1 & S2 & S3). repeat (split; [easy|]). split; [field_simplify; [|easy]; rewrite <- HS; field; lra|].
      split; apply Rmult_eq_reg_l with (area2 A B C); try easy; unfold area2, cross, psub in *; cbn in *; field; lra.
    + intros (u & v & w & Hu & Hv & Hw & Hs & Ex & Ey).
      assert (E1 : area2 P A B = w * area2 A B C).
      { unfold area2, cross, psub; cbn -[px py]; cbn [px py fst snd]; fold (px P) (py P); rewrite ?Ex, ?Ey; cbn. replace u with (1 - v - w) by lra. ring. }
      assert (E2 : area2 P B C = u * area2 A B C).
      { unfold area2, cross, psub; cbn -[px py]; cbn [px py fst snd]; fold (px P) (py P); rewrite ?Ex, ?Ey; cbn. replace u with (1 - v - w) by lra. ring. }
      assert (E3 : area2 P C A = v * area2 A B C).
      { unfold area2, cross, psub; cbn -[px py]; cbn [px py fst snd]; fold (px P) (py P); rewrite ?Ex, ?Ey; cbn. replace u with (1 - v - w) by lra. ring. }
      rewrite E1, E2, E3. destruct (Rlt_dec 0 (area2 A B C)).
      * left. repeat split; apply Rmult_le_pos; lra.
      * right. assert (area2 A B C < 0) by lra. repeat split; nra.
  - intros HC. rewrite HC in HS.
    assert (E1 : collinear A B P <-> area2 P A B = 0) by (unfold collinear, area2, cross, psub; cbn; split; intros; lra).
    assert (E2 : collinear B C P <-> area2 P B C = 0) by (unfold collinear, area2, cross, psub; cbn; split; intros; lra).
    assert (E3 : collinear C A P <-> area2 P C A = 0) by (unfold collinear, area2, cross, psub; cbn; split; intros; lra).
    rewrite E1, E2, E3. split; intros; lra.
Qed.
Example C43_nonvacuous : ~ collinear (pt (mkVec 0 0 true)) (pt (mkVec 2 0 true)) (pt (mkVec 0 3 true)).
Proof. unfold collinear, cross, psub; cbn. lra. Qed.
(** A degenerate "triangle" contains points that are not convex combinations. *)
Theorem C43_degenerate_refuted : exists a b c p : vec R,
  Triangle2D_contains (Triangle2D_of_points a b c) p = true /\ ~ in_triangle (pt a) (pt b) (pt c) (pt p).
Proof.
  exists (mkVec 0 0 true), (mkVec 0 0 true), (mkVec 0 0 true), (mkVec 7 5 true). split.
  - apply C43_contains_R; unfold collinear, cross, psub; cbn; repeat split; ring.
  - intros (u & v & w & _ & _ & _ & _ & Hx & _). cbn in Hx. lra.
Qed.

(** ** C44 *)
Lemma pbis_R p q : ~ tiny (vx q - vx p) (vy q - vy p) ->
  l_a (Line2D_perpendicular_bisector p q) = vx q - vx p /\ l_b (Line2D_perpendicular_bisector p q) = vy q - vy p.
Proof.
  intros H. unfold Line2D_perpendicular_bisector; rnum.
  destruct (Rlt_bool_spec (Rabs (vx q - vx p)) (1/1000000)); destruct (Rlt_bool_spec (Rabs (vy q - vy p)) (1/1000000)); cbn [andb]; try easy.
  exfalso; apply H; now split.
Qed.
Lemma circum_formula_R a b c :
  exists v, tri_circumcenter_formula a b c = Ok v /\
    (v_valid v = true <-> Rabs (area2 (pt a) (pt b) (pt c)) >= 1/10000000000) /\
    (v_valid v = true -> edist (pt v) (pt a) = edist (pt v) (pt b) /\ edist (pt v) (pt a) = edist (pt v) (pt c)) /\
    (v_valid v = false -> v = Vector2D_invalid).
Proof.
  unfold tri_circumcenter_formula, Vector2D_outer_product, Vector2D_r2; rnum. cbn [vx vy Vector2D_sub V]; rnum.
  rewrite ?Rpowi_py_2.
  change ((vx b - vx a) * (vy c - vy a) - (vy b - vy a) * (vx c - vx a)) with (area2 (pt a) (pt b) (pt c)).
  destruct (Rlt_bool_spec (Rabs (area2 (pt a) (pt b) (pt c))) (1/10000000000)) as [H|H].
  - eexists; split; [reflexivity|]. cbn. repeat split; try discriminate; try lra.
  - assert (N : area2 (pt a) (pt b) (pt c) <> 0) by (intros Z; rewrite Z, Rabs_R0 in H; lra).
    rewrite Rdiv_py_ok by easy. cbn [bind]. eexists; split; [reflexivity|].
    split; [split; [intros; lra|reflexivity]|]. split; [|discriminate]. intros _.
    revert N. unfold area2, cross, psub, edist, norm, norm2, psub, pt, px, py, V; cbn [fst snd vx vy]. intros N.
    split; f_equal; field; exact N.
Qed.
Theorem C44_circumcenter_R : forall a b c : vec R,
  ~ tiny (vx b - vx a) (vy b - vy a) -> ~ tiny (vx c - vx b) (vy c - vy b) -> ~ tiny (vx a - vx c) (vy a - vy c) ->
  exists v, Triangle2D_circumcenter (Triangle2D_of_points a b c) = Ok v /\
    tri_circumcenter a b c = Ok v /\
    (v_valid v = true <-> Rabs (cross (psub (pt b) (pt a)) (psub (pt c) (pt a))) >= 1/10000000000) /\
    (v_valid v = true -> edist (pt v) (pt a) = edist (pt v) (pt b) /\ edist (pt v) (pt a) = edist (pt v) (pt c)) /\
    (v_valid v = false -> v = Vector2D_invalid).
Proof.
  intros a b c Hab Hbc Hca.
  assert (G : exists v, tri_circumcenter a b c = Ok v /\
    (v_valid v = true <-> Rabs (cross (psub (pt b) (pt a)) (psub (pt c) (pt a))) >= 1/10000000000) /\
    (v_valid v = true -> edist (pt v) (pt a) = edist (pt v) (pt b) /\ edist (pt v) (pt a) = edist (pt v) (pt c)) /\
    (v_valid v = false -> v = Vector2D_invalid)).
  2:{ destruct G as (v & Hv & G). exists v. split; [|split; easy]. destruct a, b, c; exact Hv. }
  unfold tri_circumcenter. destruct (circum_formula_R a b c) as (v & -> & F1 & F2 & F3).
  destruct (pbis_R a b Hab) as [A1 B1]. destruct (pbis_R b c Hbc) as [A2 B2]. destruct (pbis_R c a Hca) as [A3 B3].
  destruct (C22_intersection_R (Line2D_perpendicular_bisector a b) (Line2D_perpendicular_bisector b c)) as (s1 & -> & V1 & _).
  destruct (C22_intersection_R (Line2D_perpendicular_bisector a b) (Line2D_perpendicular_bisector c a)) as (s2 & -> & V2 & _).
  destruct (C22_intersection_R (Line2D_perpendicular_bisector b c) (Line2D_perpendicular_bisector c a)) as (s3 & -> & V3 & _).
  cbn [bind]. rewrite A1, B1, A2, B2, ?A3, ?B3 in *.
  assert (E1 : Rabs ((vx b - vx a) * (vy c - vy b) - (vy b - vy a) * (vx c - vx b)) = Rabs (area2 (pt a) (pt b) (pt c))).
  { f_equal. unfold area2, cross, psub; cbn; ring. }
  assert (E2 : Rabs ((vx b - vx a) * (vy a - vy c) - (vy b - vy a) * (vx a - vx c)) = Rabs (area2 (pt a) (pt b) (pt c))).
  { rewrite <- Rabs_Ropp. f_equal. unfold area2, cross, psub; cbn; ring. }
  assert (E3 : Rabs ((vx c - vx b) * (vy a - vy c) - (vy c - vy b) * (vx a - vx c)) = Rabs (area2 (pt a) (pt b) (pt c))).
  { f_equal. unfold area2, cross, psub; cbn; ring. }
  rewrite E1 in V1. rewrite E2 in V2. rewrite E3 in V3.
  exists v. split; [|easy].
  destruct (v_valid s1) eqn:S1; cbn [negb]; [easy|].
  assert (v_valid s2 = false) as ->. { apply not_true_iff_false. rewrite V2, <- V1. discriminate. }
  assert (v_valid s3 = false) as ->. { apply not_true_iff_false. rewrite V3, <- V1. discriminate. }
  easy.
Qed.
Example C44_nonvacuous : ~ tiny (4 - 0) (0 - 0) /\ ~ tiny (0 - 4) (3 - 0) /\ ~ tiny (0 - 0) (0 - 3) /\
  Rabs (cross (psub (4,0) (0,0)) (psub (0,3) (0,0))) >= 1/10000000000.
Proof.
  unfold tiny. repeat split.
  - intros [H _]; rewrite Rabs_pos_eq in H; lra.
  - intros [H _]; rewrite Rabs_left in H; lra.
  - intros [_ H]; rewrite Rabs_left in H; lra.
  - unfold cross, psub; cbn. rewrite Rabs_pos_eq; lra.
Qed.

(** ** C45 *)
Theorem C45_orthocenter_R : forall a b c : vec R,
  exists v, Triangle2D_orthocenter (Triangle2D_of_points a b c) = Ok v /\
    tri_orthocenter a b c = Ok v /\
    (v_valid v = true <-> Rabs (cross (psub (pt b) (pt a)) (psub (pt c) (pt a))) >= 1/1000000) /\
    (v_valid v = true ->
       dot (psub (pt v) (pt a)) (psub (pt c) (pt b)) = 0 /\
       dot (psub (pt v) (pt b)) (psub (pt a) (pt c)) = 0 /\
       dot (psub (pt v) (pt c)) (psub (pt b) (pt a)) = 0) /\
    (v_valid v = false -> v = Vector2D_invalid).
Proof.
  intros a b c. unfold Triangle2D_orthocenter. cbn [t_a t_b t_c Triangle2D_of_points].
  assert (E : tri_orthocenter (Vector2D_of_vec a) (Vector2D_of_vec b) (Vector2D_of_vec c) = tri_orthocenter a b c) by easy.
  rewrite E. unfold tri_orthocenter.
  destruct (C22_intersection_R (Line2D_perpendicular (Line2D_of_points b c) a) (Line2D_perpendicular (Line2D_of_points c a) b)) as (v & -> & V1 & _ & Q & I).
  exists v. split; [easy|]. split; [easy|]. rewrite !of_points_R in *. unfold Line2D_perpendicular in *. revert V1 Q. rnum. cbn [l_a l_b l_c]. intros V1 Q.
  split; [|split; [|exact I]].
  - rewrite V1. match goal with |- Rabs ?x >= _ <-> Rabs ?y >= _ => replace x with y; [reflexivity|] end.
    unfold cross, psub; cbn; ring.
  - intros HV. destruct (proj2 (Q HV (pt v)) eq_refl) as [H1 H2].
    unfold lpts, on_line in H1, H2. cbn [l_a l_b l_c px py pt fst snd] in H1, H2.
    unfold dot, psub; cbn. lra.
Qed.

(** ** C46 *)
(** The unit vector towards q. *)
Lemma bisect_dir t1 t2 b : cong360 (2 * b) (t1 + t2) ->
  let ux := cos (rad t1) + cos (rad t2) in let uy := sin (rad t1) + sin (rad t2) in
  exists k, ux = k * cos (rad b) /\ uy = k * sin (rad b).
Proof.
  intros [m Hm] ux uy. exists (cos (rad b) * ux + sin (rad b) * uy).
  assert (K : cos (rad b) * uy - sin (rad b) * ux = 0).
  { unfold ux, uy.
    replace (cos (rad b) * (sin (rad t1) + sin (rad t2)) - sin (rad b) * (cos (rad t1) + cos (rad t2)))
      with (sin (rad t1 - rad b) + sin (rad t2 - rad b)) by (rewrite !sin_minus; ring).
    replace (rad t2 - rad b) with (- (rad t1 - rad b) - 2 * IZR m * PI).
    2:{ unfold rad. replace t2 with (2 * b - 360 * IZR m - t1) by lra. field. }
    assert (P : sin (- (rad t1 - rad b) - 2 * IZR m * PI) = sin (- (rad t1 - rad b))).
    { destruct (cos_cong (- (t1 - b) - 360 * IZR m) (- (t1 - b))) as [_ S].
      - exists (-m)%Z. rewrite opp_IZR. lra.
      - replace (- (rad t1 - rad b) - 2 * IZR m * PI) with (rad (- (t1 - b) - 360 * IZR m)) by (unfold rad; field).
        replace (- (rad t1 - rad b)) with (rad (- (t1 - b))) by (unfold rad; field). exact S. }
    rewrite P, sin_neg. ring. }
  pose proof (sin2_cos2 (rad b)) as SC. unfold Rsqr in SC.
  set (s := sin (rad b)) in *. set (c := cos (rad b)) in *. split.
  - transitivity (ux * (s * s + c * c)); [rewrite SC; ring|].
    replace ((c * ux + s * uy) * c) with (c * c * ux + s * (c * uy)) by ring.
    replace (c * uy) with (s * ux) by lra. ring.
  - transitivity (uy * (s * s + c * c)); [rewrite SC; ring|].
    replace ((c * ux + s * uy) * s) with (s * s * uy + c * (s * ux)) by ring.
    replace (s * ux) with (c * uy) by lra. ring.
Qed.
(** The bisecting line at vertex p contains p + r (u1 + u2), u1 and u2 being
    the unit vectors from p to q and to s. *)
Lemma bisector_line p q s : ~ tiny (vx q - vx p) (vy q - vy p) -> ~ tiny (vx s - vx p) (vy s - vy p) ->
  exists th1 th2 b l, Vector2D_th (Vector2D_sub q p) = Ok th1 /\ Vector2D_th (Vector2D_sub s p) = Ok th2 /\
    AngleDeg_bisect (AA th1) (AA th2) = Ok b /\ Line2D_of_angle p (AA b) = Ok l /\
    l_a l * l_a l + l_b l * l_b l = 1 /\
    (forall r, let d1 := edist (pt p) (pt q) in let d2 := edist (pt p) (pt s) in
       lpts l (vx p + r * ((vx q - vx p) / d1 + (vx s - vx p) / d2), vy p + r * ((vy q - vy p) / d1 + (vy s - vy p) / d2))) /\
    (exists k, l_a l * k = - ((vy q - vy p) / edist (pt p) (pt q) + (vy s - vy p) / edist (pt p) (pt s)) /\
               l_b l * k = (vx q - vx p) / edist (pt p) (pt q) + (vx s - vx p) / edist (pt p) (pt s)).
Proof.
  intros H1 H2. rewrite !th_R. do 2 eexists.
  destruct (C08_bisect_R (AA (mkAngle (atan2_deg (vy q - vy p) (vx q - vx p)))) (AA (mkAngle (atan2_deg (vy s - vy p) (vx s - vx p)))))
    as (b & Hb & _ & Hcong & _).
  exists b.
  destruct (C20_line_from_angle_R p (AA b)) as (l & Hl & Hn & Hpts). exists l. cbn [Line2D_init] in Hl.
  split; [reflexivity|]. split; [reflexivity|]. split; [exact Hb|]. split; [exact Hl|]. split; [exact Hn|].
  cbn [arg_deg a_degree] in *. destruct (bisect_dir _ _ _ Hcong) as (k & K1 & K2).
  set (d1 := edist (pt p) (pt q)). set (d2 := edist (pt p) (pt s)).
  destruct (C09_atan2_R (vy q - vy p) (vx q - vx p)) as (_ & _ & T1). destruct (T1 H1) as [X1 Y1].
  destruct (C09_atan2_R (vy s - vy p) (vx s - vx p)) as (_ & _ & T2). destruct (T2 H2) as [X2 Y2].
  replace (norm (vx q - vx p, vy q - vy p)) with d1 in * by (unfold d1; rewrite edist_sym; reflexivity).
  replace (norm (vx s - vx p, vy s - vy p)) with d2 in * by (unfold d2; rewrite edist_sym; reflexivity).
  assert (D1 : d1 <> 0). { intros Z. rewrite Z, Rmult_0_l in *. apply H1. rewrite X1, Y1. unfold tiny. rewrite Rabs_R0. lra. }
  assert (D2 : d2 <> 0). { intros Z. rewrite Z, Rmult_0_l in *. apply H2. rewrite X2, Y2. unfold tiny. rewrite Rabs_R0. lra. }
  set (a1 := atan2_deg (vy q - vy p) (vx q - vx p)) in *. set (a2 := atan2_deg (vy s - vy p) (vx s - vx p)) in *.
  assert (UX : (vx q - vx p) / d1 + (vx s - vx p) / d2 = k * cos (rad (a_degree b))).
  { rewrite X1, X2, <- K1. field. easy. }
  assert (UY : (vy q - vy p) / d1 + (vy s - vy p) / d2 = k * sin (rad (a_degree b))).
  { rewrite Y1, Y2, <- K2. field. easy. }
  split.
  - intros r. cbv zeta. rewrite UX, UY. apply Hpts. exists (r * k). apply point_eq; cbn; ring.
  - exists k. rewrite UX, UY. unfold Line2D_of_angle in Hl. cbn [to_angle bind] in Hl.
    destruct (to_angle_trig (AA b)) as [d [Hd [Hc Hs]]]. cbn in Hd. injection Hd as <-. rewrite Hc, Hs in Hl. cbn in Hl. injection Hl as <-. cbn.
    split; ring.
Qed.

(** The incenter, in barycentric coordinates weighted by the side lengths. *)
Definition incenter_of (A B C : point) : point :=
  let la := edist B C in let lb := edist C A in let lc := edist A B in
  ((la * px A + lb * px B + lc * px C) / (la + lb + lc),
   (la * py A + lb * py B + lc * py C) / (la + lb + lc)).
Definition unit_to (p q : point) : point := ((px q - px p) / edist p q, (py q - py p) / edist p q).
Definition padd (p q : point) : point := (px p + px q, py p + py q).

Lemma div_sum_zero x y d e : d <> 0 -> e <> 0 -> x / d + y / e = 0 -> x = - (y / e * d).
Proof. intros Hd He H. replace x with (x / d * d) by (field; easy). replace (x / d) with (- (y / e)) by lra. ring. Qed.
Theorem C46_incenter_R : forall a b c : vec R,
  ~ tiny (vx b - vx a) (vy b - vy a) -> ~ tiny (vx c - vx b) (vy c - vy b) -> ~ tiny (vx a - vx c) (vy a - vy c) ->
  let A := pt a in let B := pt b in let C := pt c in
  let da := padd (unit_to A B) (unit_to A C) in let db := padd (unit_to B A) (unit_to B C) in
  ~ collinear A B C ->
  exists v, Triangle2D_incenter (Triangle2D_of_points a b c) = Ok v /\ tri_incenter a b c = Ok v /\
    (** valid iff the two bisectors are not (nearly) parallel *)
    (v_valid v = true <-> Rabs (cross da db) >= 1/1000000 * norm da * norm db) /\
    (** and then it is the incenter: inside the triangle and equidistant from the sides *)
    (v_valid v = true -> pt v = incenter_of A B C).
Proof.
  intros a b c Hab Hbc Hca A B C da db HN.
  assert (NT : forall x y z w, ~ tiny (x - y) (z - w) -> ~ tiny (y - x) (w - z)).
  { intros x y z w H [K1 K2]. apply H. split; rewrite Rabs_minus_sym; easy. }
  destruct (bisector_line a b c Hab (NT _ _ _ _ Hca)) as (t1 & t2 & ba & la & E1 & E2 & E3 & E4 & Na & La & ka & Ka1 & Ka2).
  destruct (bisector_line b a c (NT _ _ _ _ Hab) Hbc) as (t3 & t4 & bb & lb & E5 & E6 & E7 & E8 & Nb & Lb & kb & Kb1 & Kb2).
  assert (G : tri_incenter a b c = Line2D_intersection la lb).
  { unfold tri_incenter. rewrite E1, E2; cbn [bind]. rewrite E3; cbn [bind]. rewrite E4; cbn [bind].
    rewrite E5, E6; cbn [bind]. rewrite E7; cbn [bind]. rewrite E8; cbn [bind]. reflexivity. }
  destruct (C22_intersection_R la lb) as (v & Hv & V1 & _ & Q & _).
  exists v. split. { unfold Triangle2D_incenter. cbn [t_a t_b t_c Triangle2D_of_points].
    assert (tri_incenter (Vector2D_of_vec a) (Vector2D_of_vec b) (Vector2D_of_vec c) = tri_incenter a b c) as -> by easy. now rewrite G. }
  split; [now rewrite G|].
  assert (DX : forall p q, edist p q <> 0 <-> p <> q).
  { intros p q. split; [intros H ->; apply H, edist_refl|intros H K; now apply edist_zero in K]. }
  assert (NAB : edist A B <> 0). { apply DX. intros E. apply HN. unfold collinear, cross, psub. rewrite E. cbn. ring. }
  assert (NBC : edist B C <> 0). { apply DX. intros E. apply HN. unfold collinear, cross, psub. rewrite E. cbn. ring. }
  assert (NCA : edist C A <> 0). { apply DX. intros E. apply HN. unfold collinear, cross, psub. rewrite E. cbn. ring. }
  pose proof (edist_nonneg A B) as PAB. pose proof (edist_nonneg B C) as PBC. pose proof (edist_nonneg C A) as PCA.
  fold A B in La, Lb, Ka1, Ka2, Kb1, Kb2. fold C in La, Lb, Ka1, Ka2, Kb1, Kb2.
  rewrite (edist_sym A C) in La, Ka1, Ka2. rewrite (edist_sym B A) in Lb, Kb1, Kb2.
  assert (DA : px da = l_b la * ka /\ py da = - (l_a la * ka)).
  { rewrite Ka1, Ka2. unfold da, padd, unit_to, A, B, C; cbn. rewrite (edist_sym (pt a) (pt c)). split; ring. }
  assert (DB : px db = l_b lb * kb /\ py db = - (l_a lb * kb)).
  { rewrite Kb1, Kb2. unfold db, padd, unit_to, A, B, C; cbn. rewrite (edist_sym (pt b) (pt a)). split; ring. }
  assert (HI : incenter_of A B C = pt v \/ v_valid v = false).
  { destruct (v_valid v) eqn:EV; [left|now right]. apply (Q eq_refl). split.
    - specialize (La (edist C A * edist A B / (edist B C + edist C A + edist A B))). cbv zeta in La.
      match type of La with lpts _ ?x => replace (incenter_of A B C) with x; [exact La|] end.
      unfold incenter_of, A, B, C; cbv zeta. apply point_eq; cbn [px py fst snd pt]; field; fold A B C; repeat split; lra.
    - specialize (Lb (edist A B * edist B C / (edist B C + edist C A + edist A B))). cbv zeta in Lb.
      match type of Lb with lpts _ ?x => replace (incenter_of A B C) with x; [exact Lb|] end.
      unfold incenter_of, A, B, C; cbv zeta. apply point_eq; cbn [px py fst snd pt]; field; fold A B C; repeat split; lra. }
  split; [|intros HV; destruct HI; congruence].
  rewrite V1.
  assert (CR : cross da db = ka * kb * (l_a la * l_b lb - l_b la * l_a lb)).
  { unfold cross. destruct DA as [-> ->], DB as [-> ->]. ring. }
  assert (NA : norm da = Rabs ka).
  { unfold norm, norm2. destruct DA as [-> ->]. replace (_ + _) with (ka * ka) by (transitivity ((l_a la * l_a la + l_b la * l_b la) * (ka * ka)); [rewrite Na|]; ring).
    exact (sqrt_Rsqr_abs ka). }
  assert (NB : norm db = Rabs kb).
  { unfold norm, norm2. destruct DB as [-> ->]. replace (_ + _) with (kb * kb) by (transitivity ((l_a lb * l_a lb + l_b lb * l_b lb) * (kb * kb)); [rewrite Nb|]; ring).
    exact (sqrt_Rsqr_abs kb). }
  rewrite CR, NA, NB, !Rabs_mult.
  (* ka and kb are non-zero because the triangle is proper *)
  assert (KA : ka <> 0).
  { intros Z. rewrite Z, Rmult_0_r in Ka1, Ka2. apply HN. unfold collinear, cross, psub, A, B, C; cbn.
    assert (F1 : (vx b - vx a) = - ((vx c - vx a) / edist C A * edist A B)). { eapply div_sum_zero; eauto; lra. }
    assert (F2 : (vy b - vy a) = - ((vy c - vy a) / edist C A * edist A B)). { eapply div_sum_zero; eauto; lra. }
    rewrite F1, F2. field. easy. }
  assert (KB : kb <> 0).
  { intros Z. rewrite Z, Rmult_0_r in Kb1, Kb2. apply HN. unfold collinear, cross, psub, A, B, C; cbn.
    assert (F1 : (vx a - vx b) = - ((vx c - vx b) / edist B C * edist A B)). { eapply div_sum_zero; eauto; lra. }
    assert (F2 : (vy a - vy b) = - ((vy c - vy b) / edist B C * edist A B)). { eapply div_sum_zero; eauto; lra. }
    replace ((vx b - vx a) * (vy c - vy a) - (vy b - vy a) * (vx c - vx a)) with (- (vx a - vx b) * (vy c - vy b) + (vy a - vy b) * (vx c - vx b)) by ring.
    rewrite F1, F2. field. easy. }
  assert (PK : 0 < Rabs ka * Rabs kb) by (apply Rmult_lt_0_compat; now apply Rabs_pos_lt).
  split; intros HH; [|apply Rle_ge; apply Rmult_le_reg_l with (Rabs ka * Rabs kb); [easy|]]; nra.
Qed.

(** incenter_of is inside the triangle and equidistant from the three sides. *)
Lemma edist_pos A B : A <> B -> 0 < edist A B.
Proof. intros H. destruct (edist_nonneg A B) as [|E]; [easy|]. symmetry in E. now apply edist_zero in E. Qed.
Theorem C46_incenter_spec : forall A B C : point, ~ collinear A B C ->
  let I := incenter_of A B C in
  in_triangle A B C I /\
  (** distance to the line through two vertices is |twice the area| / base *)
  Rabs (cross (psub B A) (psub I A)) / edist A B = Rabs (cross (psub C B) (psub I B)) / edist B C /\
  Rabs (cross (psub B A) (psub I A)) / edist A B = Rabs (cross (psub A C) (psub I C)) / edist C A.
Proof.
  intros A B C HN I.
  assert (NAB : 0 < edist A B). { apply edist_pos. intros E. apply HN. unfold collinear, cross, psub. rewrite E. cbn. ring. }
  assert (NBC : 0 < edist B C). { apply edist_pos. intros E. apply HN. unfold collinear, cross, psub. rewrite E. cbn. ring. }
  assert (NCA : 0 < edist C A). { apply edist_pos. intros E. apply HN. unfold collinear, cross, psub. rewrite E. cbn. ring. }
  set (la := edist B C) in *. set (lb := edist C A) in *. set (lc := edist A B) in *.
  assert (PS : 0 < la + lb + lc) by lra.
  split.
  - exists (la / (la + lb + lc)), (lb / (la + lb + lc)), (lc / (la + lb + lc)).
    assert (Q : forall x, 0 < x -> 0 <= x / (la + lb + lc)) by (intros; left; apply Rdiv_lt_0_compat; lra).
    repeat (split; [apply Q; easy|]). split; [field; lra|]. unfold I, incenter_of; fold la lb lc. cbn. split; field; lra.
  - assert (S1 : cross (psub B A) (psub I A) = lc / (la + lb + lc) * cross (psub B A) (psub C A)).
    { unfold I, incenter_of, cross, psub; fold la lb lc; cbn. field. lra. }
    assert (S2 : cross (psub C B) (psub I B) = la / (la + lb + lc) * cross (psub B A) (psub C A)).
    { unfold I, incenter_of, cross, psub; fold la lb lc; cbn. field. lra. }
    assert (S3 : cross (psub A C) (psub I C) = lb / (la + lb + lc) * cross (psub B A) (psub C A)).
    { unfold I, incenter_of, cross, psub; fold la lb lc; cbn. field. lra. }
    rewrite S1, S2, S3, !Rabs_mult.
    rewrite !(Rabs_pos_eq (_ / _)) by (left; apply Rdiv_lt_0_compat; lra).
    split; field; lra.
Qed.

Lemma norm_le p r : 0 <= r -> norm2 p <= r * r -> norm p <= r.
Proof. intros Hr H. unfold norm. rewrite <- (sqrt_square r) by easy. now apply sqrt_le_1_alt. Qed.
Lemma norm_eq p r : 0 <= r -> norm2 p = r * r -> norm p = r.
Proof. intros Hr H. unfold norm. rewrite H. now apply sqrt_square. Qed.
Example C46_nonvacuous : let a := mkVec 0 0 true in let b := mkVec 4 0 true in let c := mkVec 0 3 true in
  ~ collinear (pt a) (pt b) (pt c) /\ ~ tiny (4 - 0) (0 - 0) /\ ~ tiny (0 - 4) (3 - 0) /\ ~ tiny (0 - 0) (0 - 3) /\
  exists v, tri_incenter a b c = Ok v /\ v_valid v = true /\ pt v = (1, 1).
Proof.
  intros a b c.
  assert (AB : edist (pt a) (pt b) = 4) by (apply norm_eq; unfold norm2; cbn; lra).
  assert (BA : edist (pt b) (pt a) = 4) by (apply norm_eq; unfold norm2; cbn; lra).
  assert (AC : edist (pt a) (pt c) = 3) by (apply norm_eq; unfold norm2; cbn; lra).
  assert (CA : edist (pt c) (pt a) = 3) by (apply norm_eq; unfold norm2; cbn; lra).
  assert (BC : edist (pt b) (pt c) = 5) by (apply norm_eq; unfold norm2; cbn; lra).
  destruct C44_nonvacuous as (T1 & T2 & T3 & _).
  assert (NC : ~ collinear (pt a) (pt b) (pt c)) by (unfold collinear, cross, psub; cbn; lra).
  repeat (split; [easy|]).
  destruct (C46_incenter_R a b c T1 T2 T3 NC) as (v & _ & E & Hv & HI). exists v. split; [easy|].
  assert (VV : v_valid v = true).
  { apply Hv. unfold padd, unit_to. rewrite AB, BA, AC, BC.
    match goal with |- _ >= _ * norm ?x * norm ?y => assert (N1 : norm x <= 2) by (apply norm_le; unfold norm2; cbn; lra); assert (N2 : norm y <= 2) by (apply norm_le; unfold norm2; cbn; lra);
      pose proof (norm_nonneg x); pose proof (norm_nonneg y); set (n1 := norm x) in *; set (n2 := norm y) in *; assert (n1 * n2 <= 4) by nra end.
    unfold cross; cbn. rewrite Rabs_pos_eq; lra. }
  split; [easy|]. rewrite HI by easy. unfold incenter_of. rewrite AB, BC, CA. apply point_eq; cbn; field.
Qed.

(** ** C47 *)
Section C47.
  Context {T : Type} `{Num T}.
  (** In every arithmetic. *)
  Theorem C47_centroid_raises : forall a b c : vec T,
    Triangle2D_centroid (Triangle2D_of_points a b c) = Raise AttributeError /\ tri_centroid a b c = Raise AttributeError.
  Proof. easy. Qed.
  Lemma is_valid_false (t : triangle T) : neqb (vx (t_a t)) (vx (t_a t)) = true -> neqb (vy (t_a t)) (vy (t_a t)) = true ->
    Triangle2D_is_valid t = false.
  Proof.
    intros H1 H2. unfold Triangle2D_is_valid. assert (Vector2D_eq (t_a t) (t_a t) = true) as ->.
    { unfold Vector2D_eq. now rewrite H1, H2. } cbn. apply andb_false_r.
  Qed.
End C47.
Theorem C47_is_valid_R : forall t : triangle R, Triangle2D_is_valid t = false.
Proof. intros t. apply is_valid_false; cbn; now apply Req_bool_true. Qed.
(** In doubles: False unless the first vertex has a NaN coordinate. *)
Theorem C47_is_valid_F : forall (L : libm) (t : triangle F),
  is_nan (vx (t_a t)) = false -> is_nan (vy (t_a t)) = false -> @Triangle2D_is_valid F (NumF L) t = false.
Proof.
  intros L t H1 H2.
  assert (E : forall x : F, is_nan x = false -> Beqb x x = true).
  { intros x Hx. destruct (is_finite x) eqn:Hf.
    - rewrite Beqb_correct by easy. now apply Req_bool_true.
    - destruct x as [| [] | |]; easy. }
  apply is_valid_false; cbn; now apply E.
Qed.

(** ... and with a NaN there, a triangle without any sensible vertices is "valid". *)
Example C47_nan_F : forall L : libm,
  @Triangle2D_is_valid F (NumF L) (mkTri (mkVec B754_nan B754_nan true) (mkVec B754_nan B754_nan true) (mkVec B754_nan B754_nan true)) = true.
Proof. reflexivity. Qed.

(** ** C48 *)
Theorem C48_intersection_line_R : forall (t : triangle R) (l : line R),
  exists v1 v2 v3,
    Segment2D_intersection (Segment2D_of_points (t_a t) (t_b t)) [VLine l] = Ok v1 /\
    Segment2D_intersection (Segment2D_of_points (t_b t) (t_c t)) [VLine l] = Ok v2 /\
    Segment2D_intersection (Segment2D_of_points (t_c t) (t_a t)) [VLine l] = Ok v3 /\
    (** both of the first two sides hit: IndexError *)
    (v_valid v1 = true -> v_valid v2 = true -> Triangle2D_intersection t (VLine l) = Raise IndexError) /\
    (** otherwise the hits in order, counted; two weakly equal hits count once *)
    (v_valid v1 = true -> v_valid v2 = false -> v_valid v3 = true ->
       exists n, Triangle2D_intersection t (VLine l) = Ok (mkTriSol n v1 v3) /\
         (n = 1%nat <-> tiny (vx v1 - vx v3) (vy v1 - vy v3)) /\ (n = 1 \/ n = 2)%nat) /\
    (v_valid v1 = false -> v_valid v2 = true -> v_valid v3 = true ->
       exists n, Triangle2D_intersection t (VLine l) = Ok (mkTriSol n v2 v3) /\
         (n = 1%nat <-> tiny (vx v2 - vx v3) (vy v2 - vy v3)) /\ (n = 1 \/ n = 2)%nat) /\
    (v_valid v1 = true -> v_valid v2 = false -> v_valid v3 = false ->
       exists w, Triangle2D_intersection t (VLine l) = Ok (mkTriSol 1 v1 w)) /\
    (v_valid v1 = false -> v_valid v2 = true -> v_valid v3 = false ->
       exists w, Triangle2D_intersection t (VLine l) = Ok (mkTriSol 1 v2 w)) /\
    (v_valid v1 = false -> v_valid v2 = false -> v_valid v3 = true ->
       exists w, Triangle2D_intersection t (VLine l) = Ok (mkTriSol 1 v3 w)) /\
    (v_valid v1 = false -> v_valid v2 = false -> v_valid v3 = false ->
       exists w w', Triangle2D_intersection t (VLine l) = Ok (mkTriSol 0 w w')).
Proof.
  intros t l.
  destruct (C37_intersection_line_R (Segment2D_of_points (t_a t) (t_b t)) l) as (v1 & E1 & _).
  destruct (C37_intersection_line_R (Segment2D_of_points (t_b t) (t_c t)) l) as (v2 & E2 & _).
  destruct (C37_intersection_line_R (Segment2D_of_points (t_c t) (t_a t)) l) as (v3 & E3 & _).
  exists v1, v2, v3. repeat (split; [easy|]).
  cbn [Triangle2D_intersection]. unfold Triangle2D_intersection_line, tsol_side.
  cbn [Segment2D_intersection] in E1, E2, E3. rewrite E1, E2, E3. cbn [bind tsol_store].
  destruct (v_valid v1) eqn:V1; destruct (v_valid v2) eqn:V2; destruct (v_valid v3) eqn:V3;
    cbn [Nat.ltb Nat.leb andb bind tsol_store Nat.eqb]; rewrite ?V1, ?V2, ?V3;
    cbn [Nat.ltb Nat.leb andb bind tsol_store Nat.eqb]; rewrite ?V1, ?V2, ?V3;
    cbn [Nat.ltb Nat.leb andb bind tsol_store Nat.eqb].
  all: repeat split; intros; try discriminate; try reflexivity; try (do 2 eexists; reflexivity); try (eexists; reflexivity).
  - eexists; split; [reflexivity|]. rnum.
    destruct (Rlt_bool_spec (Rabs (vx v1 - vx v3)) (1/1000000)); destruct (Rlt_bool_spec (Rabs (vy v1 - vy v3)) (1/1000000)); cbn [andb];
      (split; [split; [intros; try discriminate; now split|intros [? ?]; try easy; exfalso; lra]|lia]).
  - eexists; split; [reflexivity|]. rnum.
    destruct (Rlt_bool_spec (Rabs (vx v2 - vx v3)) (1/1000000)); destruct (Rlt_bool_spec (Rabs (vy v2 - vy v3)) (1/1000000)); cbn [andb];
      (split; [split; [intros; try discriminate; now split|intros [? ?]; try easy; exfalso; lra]|lia]).
Qed.
(** Geometrically: a line that meets the sides ab and bc without being nearly
    parallel to either makes intersection() raise. *)
Theorem C48_common_case_raises_R : forall (t : triangle R) (l : line R) (p q : point),
  lpts l p -> on_seg (pt (t_a t)) (pt (t_b t)) p -> lpts l q -> on_seg (pt (t_b t)) (pt (t_c t)) q ->
  Line2D_is_parallel (Line2D_of_points (t_a t) (t_b t)) l = false ->
  Line2D_is_parallel (Line2D_of_points (t_b t) (t_c t)) l = false ->
  Triangle2D_intersection t (VLine l) = Raise IndexError.
Proof.
  intros t l p q P1 P2 Q1 Q2 N1 N2.
  destruct (C48_intersection_line_R t l) as (v1 & v2 & v3 & E1 & E2 & _ & H & _).
  destruct (C37_intersection_line_R (Segment2D_of_points (t_a t) (t_b t)) l) as (w1 & F1 & _ & G1).
  destruct (C37_intersection_line_R (Segment2D_of_points (t_b t) (t_c t)) l) as (w2 & F2 & _ & G2).
  rewrite E1 in F1. injection F1 as <-. rewrite E2 in F2. injection F2 as <-.
  apply H; [now apply (G1 N1 p)|now apply (G2 N2 q)].
Qed.
Example C48_nonvacuous :
  Triangle2D_intersection (mkTri (mkVec 0 0 true) (mkVec 2 2 true) (mkVec 4 0 true)) (VLine (mkLine 0 1 (-1))) = Raise IndexError.
Proof.
  apply C48_common_case_raises_R with (p := (1,1)) (q := (3,1)); cbn [t_a t_b t_c].
  - unfold lpts, on_line; cbn; lra.
  - exists (1/2). split; [lra|]. apply point_eq; unfold lerp; cbn; lra.
  - unfold lpts, on_line; cbn; lra.
  - exists (1/2). split; [lra|]. apply point_eq; unfold lerp; cbn; lra.
  - rewrite of_points_R. unfold Line2D_is_parallel; rnum; cbn. apply Rlt_bool_false. rewrite Rabs_left; lra.
  - rewrite of_points_R. unfold Line2D_is_parallel; rnum; cbn. apply Rlt_bool_false. rewrite Rabs_pos_eq; lra.
Qed.
Theorem C48_other_raises : forall (T : Type) (H : Num T) (t : triangle T) (s : seg T) (v : vec T),
  Triangle2D_intersection t (VSeg s) = Raise UnboundLocalError /\ Triangle2D_intersection t (VVec v) = Raise UnboundLocalError.
Proof. easy. Qed.
