(** * P_UnitF2: C199 continued: lines, and distances of segments and polygons,
      under a change of the unit of length by a power of two *)
From Coq Require Import ZArith List Bool String Reals Lra Lia.
From Flocq Require Import Core BinarySingleNaN.
From Verif Require Import Base Types NumR NumF R_Tac Spec Abs M_Angle M_Vector M_Line M_Ray M_Triangle M_Segment M_Circle M_Sector M_Rect M_Polygon L_Float P_Float P_VecF P_RectF P_PowF P_UnitF.
Import ListNotations.
Local Open Scope R_scope.

Lemma rel_opp j e m x x' : rel j e m x x' -> rel j e m (Bopp x) (Bopp x').
Proof.
  intros ((A1 & A2 & A3) & (B1 & B2 & B3) & AB).
  assert (G : forall y, win e m y -> win e m (Bopp y)).
  { intros y (P1 & P2 & P3). split; [now rewrite is_finite_Bopp|]. rewrite B2R_Bopp. split; [now rewrite Rabs_Ropp|now apply mult_opp]. }
  split; [|split]; [apply G; split; auto|apply G; split; auto|]. rewrite !B2R_Bopp, AB. ring.
Qed.
(** Both calls return, with related results, or both raise the same exception. *)
Definition alike {A} (R : A -> A -> Prop) (x y : res A) : Prop :=
  match x, y with Ok a, Ok b => R a b | Raise e, Raise f => e = f | _, _ => False end.
Definition lrel (j : Z) (l l' : line F) : Prop := rel j (-180) 181 (l_a l) (l_a l') /\ rel j (-180) 181 (l_b l) (l_b l') /\ rel (j + j) (-360) 363 (l_c l) (l_c l').
Section Lines.
  Variable L : libm.
  Lemma points_rel j a a' b b' : vrel j (-180) 180 a a' -> vrel j (-180) 180 b b' -> lrel j (@Line2D_of_points F (NumF L) a b) (@Line2D_of_points F (NumF L) a' b').
  Proof.
    intros [XA YA] [XB YB]. unfold Line2D_of_points, lrel. cbn [l_a l_b l_c nsub nmul nneg NumF].
    pose proof (rel_opp _ _ _ _ _ (rel_sub j (-180) 180 _ _ _ _ ltac:(lia) ltac:(lia) YB YA)) as A. pose proof (rel_sub j (-180) 180 _ _ _ _ ltac:(lia) ltac:(lia) XB XA) as B.
    split; [exact A|]. split; [exact B|].
    pose proof (rel_mul j j (-180) (-180) 181 180 _ _ _ _ ltac:(lia) ltac:(lia) (rel_opp _ _ _ _ _ A) XA) as P. pose proof (rel_mul j j (-180) (-180) 181 180 _ _ _ _ ltac:(lia) ltac:(lia) B YA) as Q.
    eapply rel_weak; [..|apply (rel_sub (j + j) (-180 + -180) (181 + 180) _ _ _ _ ltac:(lia) ltac:(lia) P Q)]; lia.
  Qed.
  Lemma perp_rel j l l' p p' : lrel j l l' -> vrel j (-180) 180 p p' -> lrel j (@Line2D_perpendicular F (NumF L) l p) (@Line2D_perpendicular F (NumF L) l' p').
  Proof.
    intros (A & B & _) [X Y]. unfold Line2D_perpendicular, lrel. cbn [l_a l_b l_c nsub nmul nneg NumF]. split; [exact B|]. split; [apply rel_opp, A|].
    pose proof (rel_mul j j (-180) (-180) 181 180 _ _ _ _ ltac:(lia) ltac:(lia) A Y) as P. pose proof (rel_mul j j (-180) (-180) 181 180 _ _ _ _ ltac:(lia) ltac:(lia) B X) as Q.
    eapply rel_weak; [..|apply (rel_sub (j + j) (-180 + -180) (181 + 180) _ _ _ _ ltac:(lia) ltac:(lia) P Q)]; lia.
  Qed.
  Lemma div_alike j k e f m n x x' y y' : (-970 <= e - n)%Z -> (-1074 <= m - f <= 1023)%Z -> rel j e m x x' -> rel k f n y y' ->
    alike (rel (j - k) (e - n - 52) (m - f)) (@ndiv F (NumF L) x y) (@ndiv F (NumF L) x' y').
  Proof.
    intros H1 H2 X Y. destruct (Req_dec (B2R y) 0) as [Z|Z].
    - assert (G : forall a b : F, is_finite b = true -> B2R b = 0 -> @ndiv F (NumF L) a b = Raise ZeroDivisionError).
      { intros a b Fb Eb. cbn [ndiv NumF]. unfold F_div. destruct (F_is_zero b) eqn:EZ; [reflexivity|]. exfalso. exact (P_PowF.B2R_zero b Fb EZ Eb). }
      destruct Y as ((F1 & _) & (F2 & _) & E). rewrite (G x y F1 Z), (G x' y' F2) by (rewrite E, Z; ring). reflexivity.
    - destruct (rel_div L j k e f m n x x' y y' H1 H2 Z X Y) as (q & q' & -> & -> & Q). exact Q.
  Qed.
  Lemma line_dist_rel j l l' p p' : lrel j l l' -> vrel j (-180) 180 p p' -> alike (times2 j) (@Line2D_dist F (NumF L) l p) (@Line2D_dist F (NumF L) l' p').
  Proof.
    intros (A & B & C) [X Y]. unfold Line2D_dist.
    destruct (r2_rel L j (-180) 181 (mkVec (l_a l) (l_b l) true) (mkVec (l_a l') (l_b l') true) ltac:(lia) ltac:(lia) (conj A B)) as [N R].
    unfold Vector2D_r2 in N, R. cbn [vx vy] in N, R.
    destruct (rel_sqrt L j (-180) 182 _ _ ltac:(lia) ltac:(lia) N (rel_weak (j + j) (-180 + -180) (181 + 181 + 1) (-180 + -180) (182 + 182) _ _ ltac:(lia) ltac:(lia) R)) as (s & s' & -> & -> & _ & S). cbn [bind].
    assert (D : rel (j + j) (-360) 365 (Bplus mode_NE (Bplus mode_NE (Bmult mode_NE (l_a l) (vx p)) (Bmult mode_NE (l_b l) (vy p))) (l_c l)) (Bplus mode_NE (Bplus mode_NE (Bmult mode_NE (l_a l') (vx p')) (Bmult mode_NE (l_b l') (vy p'))) (l_c l'))).
    { pose proof (rel_mul j j (-180) (-180) 181 180 _ _ _ _ ltac:(lia) ltac:(lia) A X) as P. pose proof (rel_mul j j (-180) (-180) 181 180 _ _ _ _ ltac:(lia) ltac:(lia) B Y) as Q.
      pose proof (rel_add (j + j) (-180 + -180) (181 + 180) _ _ _ _ ltac:(lia) ltac:(lia) P Q) as PQ.
      eapply rel_weak; [..|apply (rel_add (j + j) (-360) 363 _ _ _ _ ltac:(lia) ltac:(lia) (rel_weak (j + j) (-180 + -180) (181 + 180 + 1) (-360) 363 _ _ ltac:(lia) ltac:(lia) PQ) C)]; lia. }
    cbn [nadd nmul NumF]. pose proof (div_alike (j + j) j (-360) (-180 - 52) 365 182 _ _ _ _ ltac:(lia) ltac:(lia) D S) as Q.
    destruct (@ndiv F (NumF L) _ s) as [q|e1], (@ndiv F (NumF L) _ s') as [q'|e2]; try contradiction; cbn [bind alike] in *; [|exact Q].
    replace (j + j - j)%Z with j in Q by lia. cbn [nabs NumF]. eapply rel_times, rel_abs, Q.
  Qed.
  Lemma inter_rel j l l' o o' p p' : lrel j l l' -> lrel j o o' -> @Line2D_intersection F (NumF L) l o = Ok p -> @Line2D_intersection F (NumF L) l' o' = Ok p' -> v_valid p = true -> v_valid p' = true -> times2v j p p'.
  Proof.
    intros (A & B & C) (A2 & B2 & C2). unfold Line2D_intersection. cbn [nabs nmul nsub nltb NumF].
    pose proof (rel_mul j j (-180) (-180) 181 181 _ _ _ _ ltac:(lia) ltac:(lia) A B2) as P1. pose proof (rel_mul j j (-180) (-180) 181 181 _ _ _ _ ltac:(lia) ltac:(lia) B A2) as P2.
    pose proof (rel_sub (j + j) (-180 + -180) (181 + 181) _ _ _ _ ltac:(lia) ltac:(lia) P1 P2) as D.
    pose proof (rel_mul j (j + j) (-180) (-360) 181 363 _ _ _ _ ltac:(lia) ltac:(lia) B C2) as X1. pose proof (rel_mul j (j + j) (-180) (-360) 181 363 _ _ _ _ ltac:(lia) ltac:(lia) B2 C) as X2.
    pose proof (rel_sub (j + (j + j)) (-180 + -360) (181 + 363) _ _ _ _ ltac:(lia) ltac:(lia) X1 X2) as X.
    pose proof (rel_mul j (j + j) (-180) (-360) 181 363 _ _ _ _ ltac:(lia) ltac:(lia) A2 C) as Y1. pose proof (rel_mul j (j + j) (-180) (-360) 181 363 _ _ _ _ ltac:(lia) ltac:(lia) A C2) as Y2.
    pose proof (rel_sub (j + (j + j)) (-180 + -360) (181 + 363) _ _ _ _ ltac:(lia) ltac:(lia) Y1 Y2) as Y.
    set (d := Bminus mode_NE (Bmult mode_NE (l_a l) (l_b o)) _) in *. set (d' := Bminus mode_NE (Bmult mode_NE (l_a l') (l_b o')) _) in *.
    destruct (Bltb (Babs d) _); [intros [= <-] _ V; discriminate V|]. destruct (Bltb (Babs d') _); [intros _ [= <-] _ V; discriminate V|].
    pose proof (div_alike (j + (j + j)) (j + j) (-180 + -360) (-180 + -180) (181 + 363 + 1) (181 + 181 + 1) _ _ _ _ ltac:(lia) ltac:(lia) X D) as QX. pose proof (div_alike (j + (j + j)) (j + j) (-180 + -360) (-180 + -180) (181 + 363 + 1) (181 + 181 + 1) _ _ _ _ ltac:(lia) ltac:(lia) Y D) as QY.
    destruct (@ndiv F (NumF L) _ d) as [x|] in QX |- *; [|discriminate]. cbn [bind].
    destruct (@ndiv F (NumF L) _ d') as [x'|] in QX |- *; [|contradiction]. cbn [bind].
    destruct (@ndiv F (NumF L) _ d) as [y|] in QY |- *; [|discriminate]. cbn [bind].
    destruct (@ndiv F (NumF L) _ d') as [y'|] in QY |- *; [|contradiction]. cbn [bind].
    intros [= <-] [= <-] _ _. cbn [alike] in QX, QY. replace (j + (j + j) - (j + j))%Z with j in QX, QY by lia. split; cbn [vx vy V]; eapply rel_times; eassumption.
  Qed.
End Lines.
(** Lines: the line through two points has the same distances, in the new unit,
    or the same ZeroDivisionError if the points coincide; where lines meet, and
    the foot of a perpendicular, are the same point unless one of the two calls
    takes the lines for parallel (that test has a tolerance). *)
Theorem C199_lines_F : forall (L : libm) (j : Z) (a b c d a' b' c' d' : vec F),
  same_point j a a' -> same_point j b b' -> same_point j c c' -> same_point j d d' ->
  alike (times2 j) (@Line2D_dist F (NumF L) (@Line2D_of_points F (NumF L) a b) c) (@Line2D_dist F (NumF L) (@Line2D_of_points F (NumF L) a' b') c') /\
  (forall p p', @Line2D_intersection F (NumF L) (@Line2D_of_points F (NumF L) a b) (@Line2D_of_points F (NumF L) c d) = Ok p -> @Line2D_intersection F (NumF L) (@Line2D_of_points F (NumF L) a' b') (@Line2D_of_points F (NumF L) c' d') = Ok p' ->
     v_valid p = true -> v_valid p' = true -> times2v j p p') /\
  (forall p p', @Line2D_projection F (NumF L) (@Line2D_of_points F (NumF L) a b) c = Ok p -> @Line2D_projection F (NumF L) (@Line2D_of_points F (NumF L) a' b') c' = Ok p' ->
     v_valid p = true -> v_valid p' = true -> times2v j p p').
Proof.
  intros L j a b c d a' b' c' d' PA PB PC PD. apply point_rel in PA, PB, PC, PD.
  pose proof (points_rel L j _ _ _ _ PA PB) as L1. pose proof (points_rel L j _ _ _ _ PC PD) as L2. split; [|split].
  - apply line_dist_rel; assumption.
  - intros p p'. apply (inter_rel L j _ _ _ _ p p' L1 L2).
  - intros p p'. apply (inter_rel L j _ _ _ _ p p' L1 (perp_rel L j _ _ _ _ L1 PC)).
Qed.
Section Dist2.
  Variable L : libm.
  Hypothesis PW : pow_rounds L.
  Lemma nmin_rel j e m x x' y y' : rel j e m x x' -> rel j e m y y' -> rel j e m (@nmin F (NumF L) x y) (@nmin F (NumF L) x' y').
  Proof. intros X Y. unfold nmin. cbn [nltb NumF]. rewrite (rel_ltb _ _ _ _ _ _ _ _ _ Y X). destruct (Bltb y x); assumption. Qed.
  Lemma segs_rel j s s' o o' : srel j (-180) 180 s s' -> srel j (-180) 180 o o' ->
    exists d d', @Segment2D_dist_seg F (NumF L) s o = Ok d /\ @Segment2D_dist_seg F (NumF L) s' o' = Ok d' /\ rel j (-960) 920 d d'.
  Proof.
    intros S O. unfold Segment2D_dist_seg. rewrite (meet_rel L j (-180) 180 s s' o o' ltac:(lia) ltac:(lia) S O).
    destruct (Segment2D_exist_intersection_seg s o). { eexists _, _. split; [reflexivity|]. split; [reflexivity|]. apply rel_zero. }
    destruct (seg_dist_rel L PW j (-180) 180 s s' _ _ ltac:(lia) ltac:(lia) S (proj1 O)) as (d1 & d1' & -> & -> & R1). destruct (seg_dist_rel L PW j (-180) 180 s s' _ _ ltac:(lia) ltac:(lia) S (proj2 O)) as (d2 & d2' & -> & -> & R2).
    destruct (seg_dist_rel L PW j (-180) 180 o o' _ _ ltac:(lia) ltac:(lia) O (proj1 S)) as (d3 & d3' & -> & -> & R3). destruct (seg_dist_rel L PW j (-180) 180 o o' _ _ ltac:(lia) ltac:(lia) O (proj2 S)) as (d4 & d4' & -> & -> & R4).
    cbn [bind]. eexists _, _. split; [reflexivity|]. split; [reflexivity|]. repeat apply nmin_rel; assumption.
  Qed.
  Lemma far_rel j s s' p p' : srel j (-180) 180 s s' -> vrel j (-180) 180 p p' ->
    exists d d', @Segment2D_farthest_dist F (NumF L) s p = Ok d /\ @Segment2D_farthest_dist F (NumF L) s' p' = Ok d' /\ rel j (-960) 920 d d'.
  Proof.
    intros [O T] P. unfold Segment2D_farthest_dist.
    destruct (dist2_rel L PW j (-180) 180 _ _ _ _ ltac:(lia) ltac:(lia) O P) as (d1 & d1' & -> & -> & N1 & R1). destruct (dist2_rel L PW j (-180) 180 _ _ _ _ ltac:(lia) ltac:(lia) T P) as (d2 & d2' & -> & -> & N2 & R2). cbn [bind].
    assert (G : forall x x', 0 <= B2R x -> rel (j + j) (-180 + -180) (180 + 180 + 3) x x' -> exists d d', @nsqrt F (NumF L) x = Ok d /\ @nsqrt F (NumF L) x' = Ok d' /\ rel j (-960) 920 d d').
    { intros x x' N R. destruct (rel_sqrt L j (-180) 182 x x' ltac:(lia) ltac:(lia) N) as (r & r' & E1 & E2 & _ & RR); [eapply rel_weak; [..|exact R]; lia|]. exists r, r'. split; [easy|]. split; [easy|]. eapply rel_weak; [..|exact RR]; lia. }
    unfold nmax. cbn [nltb NumF]. rewrite (rel_ltb _ _ _ _ _ _ _ _ _ R1 R2). destruct (Bltb d1 d2); apply G; assumption.
  Qed.
  Lemma dloop_rel j p p' : vrel j (-180) 180 p p' -> forall es es', Forall2 (fun a b => vrel j (-180) 180 (fst a) (fst b) /\ vrel j (-180) 180 (snd a) (snd b)) es es' ->
    forall m m', orel j (-960) 920 m m' -> exists r r', @dist_loop F (NumF L) p es m = Ok r /\ @dist_loop F (NumF L) p' es' m' = Ok r' /\ orel j (-960) 920 r r' /\ (r = None -> es = [] /\ m = None).
  Proof.
    intros P es es' F2. induction F2 as [|[a b] [a' b'] es es' [A B] F2 IH]; intros m m' M; [exists m, m'; auto|]. cbn [fst snd] in A, B. cbn [dist_loop].
    destruct (seg_dist_rel L PW j (-180) 180 (Segment2D_of_points a b) (Segment2D_of_points a' b') p p' ltac:(lia) ltac:(lia) (conj A B) P) as (d & d' & -> & -> & R). cbn [bind].
    destruct (IH (@upd_min F (NumF L) m d) (@upd_min F (NumF L) m' d')) as (r & r' & E1 & E2 & O & N); [apply min_rel; assumption|]. exists r, r'. split; [easy|]. split; [easy|]. split; [easy|].
    intros E. destruct (N E) as [_ U]. exfalso. destruct m as [x|]; cbn [upd_min] in U; [destruct (@nltb F (NumF L) d x)|]; discriminate.
  Qed.
  Lemma open_rel {A B} (R : A -> B -> Prop) vs ws : Forall2 R vs ws -> Forall2 (fun p q => R (fst p) (fst q) /\ R (snd p) (snd q)) (open_pairs vs) (open_pairs ws).
  Proof. intros F2. induction F2 as [|a b vs ws H F2 IH]; [constructor|]. destruct F2 as [|a1 b1 vs ws H1 F2]; [constructor|]. cbn [open_pairs]. constructor; [auto|exact IH]. Qed.
  Lemma last_rel {A B} (R : A -> B -> Prop) vs ws a b : Forall2 R vs ws -> R a b -> R (last vs a) (last ws b).
  Proof. intros F2 H. induction F2 as [|x y vs ws H1 F2 IH]; [exact H|]. destruct F2; [exact H1|exact IH]. Qed.
  Lemma poly_dist_rel j vs ws p p' plane : Forall2 (vrel j (-180) 180) vs ws -> vrel j (-180) 180 p p' -> vs <> [] ->
    exists d d', @Polygon2D_dist F (NumF L) vs p plane = Ok (Some d) /\ @Polygon2D_dist F (NumF L) ws p' plane = Ok (Some d') /\ rel j (-960) 920 d d'.
  Proof.
    intros F2 P NE. pose proof (contains_rel L j (-180) 180 vs ws p p' true ltac:(lia) ltac:(lia) F2 P) as CT.
    destruct F2 as [|v w vs ws H F2]; [contradiction|].
    destruct F2 as [|v1 w1 vs ws H1 F2].
    { cbn [Polygon2D_dist]. destruct (r_rel L j (-180) 181 _ _ ltac:(lia) ltac:(lia) (sub_rel L j (-180) 180 _ _ _ _ ltac:(lia) ltac:(lia) H P)) as (r & r' & -> & -> & R). cbn [bind]. exists r, r'. split; [easy|]. split; [easy|]. eapply rel_weak; [..|exact R]; lia. }
    assert (FF : Forall2 (vrel j (-180) 180) (v :: v1 :: vs) (w :: w1 :: ws)) by (constructor; [assumption|constructor; assumption]).
    assert (G : forall inside : bool, exists d d', (if inside then Ok (Some (@nlit F (NumF L) 0 1)) else m <- @dist_loop F (NumF L) p (open_pairs (v :: v1 :: vs)) None ;; match vs with [] => Ok m | _ => @dist_loop F (NumF L) p [(last (v :: v1 :: vs) v, v)] m end)%py = Ok (Some d) /\
       (if inside then Ok (Some (@nlit F (NumF L) 0 1)) else m <- @dist_loop F (NumF L) p' (open_pairs (w :: w1 :: ws)) None ;; match ws with [] => Ok m | _ => @dist_loop F (NumF L) p' [(last (w :: w1 :: ws) w, w)] m end)%py = Ok (Some d') /\ rel j (-960) 920 d d').
    { intros [|]; [eexists _, _; split; [reflexivity|]; split; [reflexivity|]; apply rel_zero|].
      destruct (dloop_rel j p p' P _ _ (open_rel _ _ _ FF) None None I) as (r & r' & -> & -> & R & N). cbn [bind].
      pose proof (last_rel _ _ _ _ _ FF H) as LR. destruct F2 as [|v2 w2 vs ws H2 F2].
      { destruct r as [r|], r' as [r'|]; try contradiction; [exists r, r'; auto|]. destruct (N eq_refl) as [U _]. discriminate U. }
      destruct (dloop_rel j p p' P [(last (v :: v1 :: v2 :: vs) v, v)] [(last (w :: w1 :: w2 :: ws) w, w)] ltac:(constructor; [split; assumption|constructor]) _ _ R) as (t & t' & -> & -> & TR & TN).
      destruct t as [t|], t' as [t'|]; try contradiction; [exists t, t'; auto|]. destruct (TN eq_refl) as [U _]. discriminate U. }
    unfold Polygon2D_dist. destruct plane.
    - destruct (P_SafeF.ret_contains L (v :: v1 :: vs) p true) as [i EI]. rewrite CT, EI. cbn [bind]. destruct (G i) as (d & d' & E1 & E2 & R). exists d, d'.
      destruct vs, ws; try (inversion F2; fail); auto.
    - cbn [bind]. destruct (G false) as (d & d' & E1 & E2 & R). exists d, d'. destruct vs, ws; try (inversion F2; fail); auto.
  Qed.
End Dist2.

(** Distances between segments, the farthest distance, and distances to a
    polygon, seen as an area or as its outline. *)
Theorem C199_distances_F : forall (L : libm) (j : Z) (a b c d a' b' c' d' : vec F), pow_rounds L ->
  same_point j a a' -> same_point j b b' -> same_point j c c' -> same_point j d d' ->
  (exists r r', @Segment2D_dist_seg F (NumF L) (Segment2D_of_points a b) (Segment2D_of_points c d) = Ok r /\ @Segment2D_dist_seg F (NumF L) (Segment2D_of_points a' b') (Segment2D_of_points c' d') = Ok r' /\ times2 j r r') /\
  (exists r r', @Segment2D_farthest_dist F (NumF L) (Segment2D_of_points a b) c = Ok r /\ @Segment2D_farthest_dist F (NumF L) (Segment2D_of_points a' b') c' = Ok r' /\ times2 j r r') /\
  (forall (vs ws : list (vec F)) (plane : bool), Forall2 (same_point j) vs ws ->
    vs <> [] -> exists r r', @Polygon2D_dist F (NumF L) vs c plane = Ok (Some r) /\ @Polygon2D_dist F (NumF L) ws c' plane = Ok (Some r') /\ times2 j r r').
Proof.
  intros L j a b c d a' b' c' d' PW PA PB PC PD. apply point_rel in PA, PB, PC, PD. split; [|split].
  - destruct (segs_rel L PW j (Segment2D_of_points a b) (Segment2D_of_points a' b') (Segment2D_of_points c d) (Segment2D_of_points c' d') (conj PA PB) (conj PC PD)) as (r & r' & E1 & E2 & R). exists r, r'. split; [easy|]. split; [easy|]. eapply rel_times, R.
  - destruct (far_rel L PW j (Segment2D_of_points a b) (Segment2D_of_points a' b') c c' (conj PA PB) PC) as (r & r' & E1 & E2 & R). exists r, r'. split; [easy|]. split; [easy|]. eapply rel_times, R.
  - intros vs ws plane F2 NE. apply (Forall2_weak _ (vrel j (-180) 180) _ _ (point_rel j)) in F2. destruct (poly_dist_rel L PW j vs ws c c' plane F2 PC NE) as (r & r' & E1 & E2 & R).
    exists r, r'. split; [easy|]. split; [easy|]. eapply rel_times, R.
Qed.
(** The hypotheses are met: the x axis and a line through (2^3, 0) and (2^4, 2^3), in two units, meet in a valid point in both. *)
Definition crossing (L : libm) (k : Z) : res (vec F) :=
  @Line2D_intersection F (NumF L) (@Line2D_of_points F (NumF L) (on_x (F_of_Z 0)) (on_x (p2 (4 + k)))) (@Line2D_of_points F (NumF L) (on_x (p2 (3 + k))) (mkVec (p2 (4 + k)) (p2 (3 + k)) true)).
Example C199_lines_nonvacuous : forall L : libm,
  same_point 20 (on_x (F_of_Z 0)) (on_x (F_of_Z 0)) /\ same_point 20 (on_x (p2 4)) (on_x (p2 24)) /\ same_point 20 (on_x (p2 3)) (on_x (p2 23)) /\
  same_point 20 (mkVec (p2 4) (p2 3) true) (mkVec (p2 24) (p2 23) true) /\
  (exists p p', crossing L 0 = Ok p /\ crossing L 20 = Ok p' /\ v_valid p = true /\ v_valid p' = true) /\ pow_rounds libm_sq.
Proof.
  intros L. split; [apply origin_same|]. split; [apply (on_x_same 4 20); lia|]. split; [apply (on_x_same 3 20); lia|]. split; [apply (p2_same 4 3 20); lia|]. split; [|intros x _ _; reflexivity].
  assert (G : forall k, match crossing L k with Ok p => v_valid p | Raise _ => false end = true -> exists p, crossing L k = Ok p /\ v_valid p = true) by (intros k; destruct (crossing L k); [eauto|discriminate]).
  destruct (G 0%Z) as (p & E1 & V1); [vm_compute; reflexivity|]. destruct (G 20%Z) as (p' & E2 & V2); [vm_compute; reflexivity|]. exists p, p'. auto.
Qed.
