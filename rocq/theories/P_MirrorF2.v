(** * P_MirrorF2: centres of triangles and circles through three points in a mirror, in doubles (C200) *)
From Coq Require Import ZArith List Bool String Reals Lra Lia.
From Flocq Require Import Core BinarySingleNaN.
From Verif Require Import Base Types NumR NumF R_Tac Spec Abs M_Angle M_Vector M_Line M_Ray M_Triangle M_Segment M_Circle M_Sector M_Rect M_Polygon M_PolyF L_Float P_Float P_VecF P_RectF P_PowF P_UnitF P_UnitF2 P_MirrorF.
Import ListNotations.
Local Open Scope R_scope.

Section Mirror2.
  Variable L : libm.
  Variables sx sy : bool.
  Notation oo := (xorb sx sy).
  Notation rl := (vmir sx sy).
  Notation lm := (lmir sx sy).
  Lemma bisector_m p q p' q' : @Vector2D_equals_weakly F (NumF L) q p = false -> rl p p' -> rl q q' -> lm oo (@Line2D_perpendicular_bisector F (NumF L) p q) (@Line2D_perpendicular_bisector F (NumF L) p' q').
  Proof.
    intros E P Q. pose proof (weakly_m L sx sy _ _ _ _ Q P) as E'. rewrite E in E'. unfold Line2D_perpendicular_bisector. unfold Vector2D_equals_weakly in E, E'. rewrite E, E'. destruct P as [P1 P2], Q as [Q1 Q2]. unfold lmir. cbn [l_a l_b l_c nsub nmul nadd NumF].
    split; [mir|]. split; [mir|]. mir.
  Qed.
  Lemma formula_m a b c a' b' c' : rl a a' -> rl b b' -> rl c c' -> alike (image sx sy) (@tri_circumcenter_formula F (NumF L) a b c) (@tri_circumcenter_formula F (NumF L) a' b' c').
  Proof.
    intros A B C. unfold tri_circumcenter_formula. pose proof (sub_m L sx sy _ _ _ _ B A) as AB. pose proof (sub_m L sx sy _ _ _ _ C A) as AC. pose proof (outer_m L sx sy _ _ _ _ AB AC) as O. cbn [nltb nabs NumF]. rewrite (mir_abs _ _ _ O), (r2_m L sx sy _ _ AB), (r2_m L sx sy _ _ AC). destruct (Bltb _ _); [split; [reflexivity|discriminate]|].
    eapply mir_bind; [apply (mir_div L false oo); [apply mir_refl|exact O]|]. intros i i' I. split; [reflexivity|]. intros _. destruct A as [A1 A2], AB as [B1 B2], AC as [C1 C2]. cbn [V vx vy nadd nmul nsub NumF] in *. split; mir.
  Qed.
  Lemma circumcenter_m a b c a' b' c' : @Vector2D_equals_weakly F (NumF L) b a = false -> @Vector2D_equals_weakly F (NumF L) c b = false -> @Vector2D_equals_weakly F (NumF L) a c = false -> rl a a' -> rl b b' -> rl c c' ->
    alike (image sx sy) (@tri_circumcenter F (NumF L) a b c) (@tri_circumcenter F (NumF L) a' b' c').
  Proof.
    intros E1 E2 E3 A B C. unfold tri_circumcenter. pose proof (bisector_m _ _ _ _ E1 A B) as AB. pose proof (bisector_m _ _ _ _ E2 B C) as BC. pose proof (bisector_m _ _ _ _ E3 C A) as CA.
    pose proof (formula_m _ _ _ _ _ _ A B C) as FM. eapply mir_bind; [apply (inter_m L sx sy oo oo); eassumption|]. intros p p' [V _]. rewrite V. destruct (v_valid p); cbn [negb]; [exact FM|].
    eapply mir_bind; [apply (inter_m L sx sy oo oo); eassumption|]. intros q q' Q. pose proof Q as [V2 _]. rewrite V2. destruct (v_valid q); [exact Q|].
    eapply mir_bind; [apply (inter_m L sx sy oo oo); eassumption|]. intros r r' R. pose proof R as [V3 _]. rewrite V3. destruct (v_valid r); [exact R|exact FM].
  Qed.
  Lemma orthocenter_m a b c a' b' c' : rl a a' -> rl b b' -> rl c c' -> alike (image sx sy) (@tri_orthocenter F (NumF L) a b c) (@tri_orthocenter F (NumF L) a' b' c').
  Proof. intros A B C. unfold tri_orthocenter. apply (inter_m L sx sy (xorb false oo) (xorb false oo)); apply perp_m; try assumption; now apply line_m. Qed.
  Hypothesis PE : pow_even L.
  Lemma in_circle_m p a b c p' a' b' c' : rl p p' -> rl a a' -> rl b b' -> rl c c' -> @Circle2D_circum_circle_contains F (NumF L) p' a' b' c' = @Circle2D_circum_circle_contains F (NumF L) p a b c.
  Proof.
    intros P A B C. pose proof A as [A1 A2]. pose proof B as [B1 B2]. pose proof C as [C1 C2]. unfold Circle2D_circum_circle_contains. cbn [nltb nabs nmul nsub nadd NumF].
    set (ar' := Bmult _ (@nlit F (NumF L) 2 1) _). set (ar := Bmult _ (@nlit F (NumF L) 2 1) _). assert (O : mir oo ar ar') by (unfold ar, ar'; mir). rewrite (mir_abs _ _ _ O). destruct (Bltb _ _); [reflexivity|].
    match goal with |- bind (ndiv ?x' _) (fun _ => bind (ndiv ?y' _) _) = bind (ndiv ?x _) (fun _ => bind (ndiv ?y _) _) => assert (X : mir sy x x') by mir; assert (Y : mir sx y y') by mir; set (x0 := x) in *; set (x0' := x') in *; set (y0 := y) in *; set (y0' := y') in * end.
    pose proof (mir_div L _ _ _ _ _ _ X O) as QX. pose proof (mir_div L _ _ _ _ _ _ Y O) as QY.
    destruct (ndiv x0 ar) as [u|e], (ndiv x0' ar') as [u'|e']; cbn [alike] in QX; try contradiction; cbn [bind]; [|congruence].
    destruct (ndiv y0 ar) as [w|e], (ndiv y0' ar') as [w'|e']; cbn [alike] in QY; try contradiction; cbn [bind]; [|congruence].
    assert (CC : rl (V u w) (V u' w')) by (split; cbn [V vx vy]; eapply mir_eq; try eassumption; bools).
    now rewrite (dist2_m L PE sx sy _ _ _ _ CC P), (dist2_m L PE sx sy _ _ _ _ CC A).
  Qed.
  (** circle and line *)
  Definition pairs_m (b : bool) (o o' : option (F * F)) : Prop := match o, o' with
    | None, None => True
    | Some (s, t), Some (s', t') => if b then mir true s t' /\ mir true t s' else mir false s s' /\ mir false t t'
    | _, _ => False
    end.
  Lemma quad_m b x x' y y' z z' : mir false x x' -> mir b y y' -> mir false z z' -> alike (pairs_m b) (@quadratic_f F (NumF L) x y z) (@quadratic_f F (NumF L) x' y' z').
  Proof.
    intros X Y Z. unfold quadratic_f. cbn [nsub nmul nneg nadd nabs nltb neqb NumF]. rewrite (sq_m _ _ _ Y).
    set (d' := Bminus mode_NE (Bmult mode_NE y y) (Bmult mode_NE (Bmult mode_NE _ x') z')). set (d := Bminus mode_NE (Bmult mode_NE y y) (Bmult mode_NE (Bmult mode_NE _ x) z)).
    assert (D : mir false d d') by (unfold d, d'; mir). destruct (mir_cmp0 L _ _ _ X) as (_ & _ & _ & _ & ->). destruct (Beqb x _); [reflexivity|]. rewrite (mir_abs _ _ _ D).
    assert (X2 : mir false (Bmult mode_NE (@nlit F (NumF L) 2 1) x) (Bmult mode_NE (@nlit F (NumF L) 2 1) x')) by mir. pose proof (mir_opp _ _ _ Y) as YO.
    destruct (Bltb (Babs d) _).
    - eapply mir_bind; [apply (mir_div L b false); eassumption|]. intros s s' S. rewrite xorb_false_r in S. destruct b; split; exact S.
    - destruct (mir_cmp0 L _ _ _ D) as (-> & _). destruct (Bltb d _); [exact I|]. eapply mir_bind; [apply (mir_sqrt L _ _ D)|]. intros r r' R.
      assert (E : forall u v : F, match @ndiv F (NumF L) u (Bmult mode_NE (@nlit F (NumF L) 2 1) x), @ndiv F (NumF L) v (Bmult mode_NE (@nlit F (NumF L) 2 1) x) with Ok _, Ok _ => True | Raise e, Raise f => e = f | _, _ => False end) by (intros u v; cbn [ndiv NumF]; unfold F_div; destruct (F_is_zero _); [reflexivity|exact I]).
      specialize (E (Bplus mode_NE (Bopp y) r) (Bminus mode_NE (Bopp y) r)).
      destruct b.
      + assert (M1 : mir true (Bplus mode_NE (Bopp y) r) (Bminus mode_NE (Bopp y') r')).
        { rewrite Bminus_plus. apply mir_add; [exact YO|]. pose proof (mir_opp_l _ _ _ (mir_opp _ _ _ R)) as K. rewrite Bopp_involutive in K. exact K. }
        assert (M2 : mir true (Bminus mode_NE (Bopp y) r) (Bplus mode_NE (Bopp y') r')).
        { rewrite Bminus_plus. apply mir_add; [exact YO|]. exact (mir_opp_l _ _ _ R). }
        pose proof (mir_div L _ _ _ _ _ _ M1 X2) as Q1. pose proof (mir_div L _ _ _ _ _ _ M2 X2) as Q2. cbn [xorb] in Q1, Q2.
        destruct (ndiv (Bplus mode_NE (Bopp y) r) _), (ndiv (Bminus mode_NE (Bopp y) r) _); try contradiction; destruct (ndiv (Bplus mode_NE (Bopp y') r') _), (ndiv (Bminus mode_NE (Bopp y') r') _); cbn [alike bind] in *; try contradiction; try congruence. split; assumption.
      + assert (M1 : mir false (Bplus mode_NE (Bopp y) r) (Bplus mode_NE (Bopp y') r')) by now apply mir_add. assert (M2 : mir false (Bminus mode_NE (Bopp y) r) (Bminus mode_NE (Bopp y') r')) by now apply mir_sub.
        eapply mir_bind; [apply (mir_div L _ _ _ _ _ _ M1 X2)|]. intros s s' S. eapply mir_bind; [apply (mir_div L _ _ _ _ _ _ M2 X2)|]. intros t t' T. split; assumption.
  Qed.
  (** two lists of at most two points, mirror images in some order; of two weakly equal points either may have been kept *)
  Definition points_image (l l' : list (vec F)) : Prop := match l, l' with
    | [], [] => True
    | [p], [p'] => exists q, (q = p \/ @Vector2D_equals_weakly F (NumF L) p q = true) /\ image sx sy q p'
    | [p; q], [p'; q'] => (image sx sy p p' /\ image sx sy q q') \/ (image sx sy p q' /\ image sx sy q p')
    | _, _ => False
    end.
  Lemma Babs_swap (x y : F) : Babs (Bminus mode_NE x y) = Babs (Bminus mode_NE y x).
  Proof. destruct (Bminus_swap y x) as [->|[[s ->] [t ->]]]; [now destruct (Bminus mode_NE y x)|reflexivity]. Qed.
  Lemma weakly_sym p q : @Vector2D_equals_weakly F (NumF L) p q = @Vector2D_equals_weakly F (NumF L) q p.
  Proof. unfold Vector2D_equals_weakly. cbn [nabs nsub NumF]. now rewrite (Babs_swap (vx p)), (Babs_swap (vy p)). Qed.
  Lemma merge_m p q p' q' : v_valid p = true -> v_valid q = true -> v_valid p' = true -> v_valid q' = true -> (rl p p' /\ rl q q') \/ (rl p q' /\ rl q p') -> points_image (@merge_weakly F (NumF L) p q) (@merge_weakly F (NumF L) p' q').
  Proof.
    intros V1 V2 V3 V4 H. unfold merge_weakly.
    assert (E : @Vector2D_equals_weakly F (NumF L) p' q' = @Vector2D_equals_weakly F (NumF L) p q) by (destruct H as [[]|[]]; [now apply (weakly_m L sx sy)|rewrite weakly_sym; now apply (weakly_m L sx sy)]).
    assert (I : forall u v, v_valid u = true -> v_valid v = true -> rl u v -> image sx sy u v) by (intros u v A B K; split; [congruence|intros _; exact K]).
    rewrite E. destruct (Vector2D_equals_weakly p q) eqn:W; cbn [points_image].
    - destruct H as [[]|[]]; [exists p; auto|exists q; auto].
    - destruct H as [[]|[]]; [left|right]; auto.
  Qed.
  Lemma get_x_m g l l' y y' : lm g l l' -> mir sy y y' -> @nltb F (NumF L) (@nabs F (NumF L) (l_a l)) (@EPSILON F (NumF L)) = false -> alike (mir sx) (@Line2D_get_x F (NumF L) l y) (@Line2D_get_x F (NumF L) l' y').
  Proof.
    intros (A & B & C) Y E. unfold Line2D_get_x. cbn [nltb nabs nneg nmul nadd NumF] in *. rewrite (mir_abs _ _ _ A), E.
    assert (N : mir (xorb g oo) (Bopp (Bplus mode_NE (Bmult mode_NE (l_b l) y) (l_c l))) (Bopp (Bplus mode_NE (Bmult mode_NE (l_b l') y') (l_c l')))) by mir.
    pose proof (mir_div L _ _ _ _ _ _ N A) as Q. destruct (ndiv _ _), (ndiv _ _); try contradiction; [|exact Q]. cbn [alike] in *. eapply mir_eq; [exact Q|bools].
  Qed.
  Lemma circle_line_m g c c' l l' : rl (c_center c) (c_center c') -> c_radius c' = c_radius c -> lm g l l' -> alike points_image (@Circle2D_intersection_line F (NumF L) c l) (@Circle2D_intersection_line F (NumF L) c' l').
  Proof.
    intros [CX CY] R K. pose proof K as (A & B & C). unfold Circle2D_intersection_line. rewrite R. cbn [nltb nabs nsub nmul nadd nneg NumF]. rewrite (mir_abs _ _ _ A), (mir_abs _ _ _ B). destruct (Bltb (Babs (l_a l)) _) eqn:EA.
    - destruct (Bltb (Babs (l_b l)) _); [exact I|]. rewrite (pow_m L PE _ _ _ CX). destruct (npowi (vx (c_center c)) 2) as [px|]; [|reflexivity]. cbn [bind].
      eapply mir_bind; [apply (mir_div L _ _ _ _ _ _ C B)|]. intros q q' Q. assert (Q1 : mir sy (Bplus mode_NE q (vy (c_center c))) (Bplus mode_NE q' (vy (c_center c')))) by (apply mir_add; [eapply mir_eq; [exact Q|bools]|exact CY]).
      rewrite (pow_m L PE _ _ _ Q1). destruct (npowi (Bplus _ _ _) 2) as [py|]; [|reflexivity]. cbn [bind]. destruct (npowi (c_radius c) 2) as [pr|]; [|reflexivity]. cbn [bind].
      eapply mir_bind; [apply (quad_m sx); [apply mir_refl|mir|apply mir_refl]|]. intros [[s t]|] [[s' t']|] P; try contradiction; [|exact I].
      eapply mir_bind; [apply (mir_div L _ _ _ _ _ _ (mir_opp _ _ _ C) B)|]. intros y y' Y. assert (Y1 : mir sy y y') by (eapply mir_eq; [exact Y|bools]).
      apply merge_m; try reflexivity. unfold pairs_m in P. unfold vmir, V. cbn [vx vy]. revert P. case sx; intros [P1 P2]; auto.
    - eapply mir_bind; [apply (mir_div L _ _ _ _ _ _ B A)|]. intros ba ba' BA. eapply mir_bind; [apply (mir_div L _ _ _ _ _ _ C A)|]. intros ca ca' CA.
      assert (BA1 : mir oo ba ba') by (eapply mir_eq; [exact BA|bools]). assert (CA1 : mir sx ca ca') by (eapply mir_eq; [exact CA|bools]). clear BA CA.
      assert (S : mir sx (Bplus mode_NE ca (vx (c_center c))) (Bplus mode_NE ca' (vx (c_center c')))) by now apply mir_add.
      rewrite (pow_m L PE _ _ _ S), (pow_m L PE _ _ _ CY). destruct (npowi (Bplus _ _ _) 2) as [p1|]; [|reflexivity]. cbn [bind]. destruct (npowi (vy (c_center c)) 2) as [p2|]; [|reflexivity]. cbn [bind]. destruct (npowi (c_radius c) 2) as [p3|]; [|reflexivity]. cbn [bind].
      eapply mir_bind; [apply (quad_m sy); [mir|mir|apply mir_refl]|]. intros [[s t]|] [[s' t']|] P; try contradiction; [|exact I].
      assert (H : (mir sy s s' /\ mir sy t t') \/ (mir sy s t' /\ mir sy t s')) by (revert P; unfold pairs_m; case sy; intros [P1 P2]; auto).
      assert (EX : forall u v : F, match @Line2D_get_x F (NumF L) l u, @Line2D_get_x F (NumF L) l v with Ok _, Ok _ => True | Raise e, Raise f => e = f | _, _ => False end) by (intros u v; unfold Line2D_get_x; destruct (nltb _ _); [exact I|]; cbn [ndiv NumF]; unfold F_div; destruct (F_is_zero _); [reflexivity|exact I]).
      specialize (EX s t). destruct H as [[H1 H2]|[H1 H2]]; pose proof (get_x_m g l l' _ _ K H1 EA) as G1; pose proof (get_x_m g l l' _ _ K H2 EA) as G2;
        destruct (Line2D_get_x l s) as [x1|], (Line2D_get_x l t) as [x2|]; try contradiction; destruct (Line2D_get_x l' s') as [x1'|], (Line2D_get_x l' t') as [x2'|]; cbn [alike bind] in *; try contradiction; try congruence;
        (apply merge_m; try reflexivity); unfold vmir, V; cbn [vx vy]; auto.
  Qed.
  Lemma circle_circle_m c c' o o' : rl (c_center c) (c_center c') -> c_radius c' = c_radius c -> rl (c_center o) (c_center o') -> c_radius o' = c_radius o -> alike points_image (@Circle2D_intersection_circle F (NumF L) c o) (@Circle2D_intersection_circle F (NumF L) c' o').
  Proof.
    intros C R O S. unfold Circle2D_intersection_circle. rewrite R, S, (r2_m L sx sy _ _ C), (r2_m L sx sy _ _ O). destruct (sub_m L sx sy _ _ _ _ O C) as [X Y]. cbn [Vector2D_sub V vx vy nsub NumF] in X, Y. cbn [nsub nmul nadd NumF]. rewrite (sq_m _ _ _ X), (sq_m _ _ _ Y).
    destruct (nsqrt _) as [d|]; [|reflexivity]. cbn [bind]. destruct (_ || _); [exact I|]. apply (circle_line_m oo); [exact C|exact R|]. unfold lmir. cbn [l_a l_b l_c].
    split; [mir|]. split; [mir|]. eapply mir_eq; [apply mir_refl|bools].
  Qed.
End Mirror2.

(** ** C200 *)
(** Where circum_circle puts the circle: centre mirrored, same radius. *)
Definition circle_image (sx sy : bool) (c d : circle F) : Prop := image sx sy (c_center c) (c_center d) /\ c_radius d = c_radius c.
(** Orthocentre, circumcentre (if no two vertices are weakly equal), circle through three points, and whether a point is in it. *)
Theorem C200_centres_F : forall (L : libm) (sx sy : bool) (a b c p : vec F),
  let a' := mirror sx sy a in let b' := mirror sx sy b in let c' := mirror sx sy c in let p' := mirror sx sy p in
  alike (image sx sy) (@Triangle2D_orthocenter F (NumF L) (mkTri a b c)) (@Triangle2D_orthocenter F (NumF L) (mkTri a' b' c')) /\
  (pow_even L -> @Circle2D_circum_circle_contains F (NumF L) p' a' b' c' = @Circle2D_circum_circle_contains F (NumF L) p a b c) /\
  (@Vector2D_equals_weakly F (NumF L) b a = false -> @Vector2D_equals_weakly F (NumF L) c b = false -> @Vector2D_equals_weakly F (NumF L) a c = false ->
   alike (image sx sy) (@Triangle2D_circumcenter F (NumF L) (mkTri a b c)) (@Triangle2D_circumcenter F (NumF L) (mkTri a' b' c')) /\
   (pow_even L -> alike (circle_image sx sy) (@Circle2D_circum_circle F (NumF L) a b c) (@Circle2D_circum_circle F (NumF L) a' b' c'))).
Proof.
  intros L sx sy a b c p a' b' c' p'. pose proof (mirror_m sx sy a) as A. pose proof (mirror_m sx sy b) as B. pose proof (mirror_m sx sy c) as C. pose proof (mirror_m sx sy p) as P. fold a' in A. fold b' in B. fold c' in C. fold p' in P.
  split; [now apply orthocenter_m|]. split; [intros PE; now apply (in_circle_m L sx sy PE)|]. intros E1 E2 E3. pose proof (circumcenter_m L sx sy _ _ _ _ _ _ E1 E2 E3 A B C) as CC. split; [exact CC|]. intros PE.
  unfold Circle2D_circum_circle. eapply mir_bind; [exact CC|]. intros q q' Q. pose proof Q as [V I]. rewrite V. destruct (v_valid q) eqn:EV; cbn [negb].
  - rewrite (dist_m L PE sx sy _ _ _ _ (I eq_refl) A). destruct (Vector2D_dist q a) as [r|e]; [|reflexivity]. cbn [bind alike]. split; [|reflexivity]. unfold image, Circle2D_init; cbn [c_center v_valid vx vy Vector2D_of_vec]. split; [first [reflexivity|congruence]|intros _; exact (I eq_refl)].
  - split; [|reflexivity]. split; [reflexivity|]. intros _. split; right; split; exists false; reflexivity.
Qed.
(** A triangle with a circumcentre, in the mirror. *)
Example C200_centres_nonvacuous : forall L : libm, let z := fun x y => mkVec (F_of_Z x) (F_of_Z y) true in
  @Vector2D_equals_weakly F (NumF L) (z 4%Z 0%Z) (z 0%Z 0%Z) = false /\ @Vector2D_equals_weakly F (NumF L) (z 0%Z 2%Z) (z 4%Z 0%Z) = false /\ @Vector2D_equals_weakly F (NumF L) (z 0%Z 0%Z) (z 0%Z 2%Z) = false /\
  match @Triangle2D_circumcenter F (NumF L) (mkTri (mirror true false (z 0%Z 0%Z)) (mirror true false (z 4%Z 0%Z)) (mirror true false (z 0%Z 2%Z))) with Ok p => v_valid p && Beqb (vx p) (F_of_Z (-2)) && Beqb (vy p) (F_of_Z 1) | Raise _ => false end = true.
Proof. intros L z. split; [vm_compute; reflexivity|]. split; [vm_compute; reflexivity|]. split; vm_compute; reflexivity. Qed.
(** Circles cut by lines and by circles: the mirrored points, perhaps in the other order. *)
Theorem C200_circles_F : forall (L : libm) (sx sy : bool) (a b c d : vec F) (r s : F), pow_even L ->
  let a' := mirror sx sy a in let b' := mirror sx sy b in let c' := mirror sx sy c in let d' := mirror sx sy d in
  alike (points_image L sx sy) (@Circle2D_intersection F (NumF L) (mkCircle a r) (VLine (@Line2D_of_points F (NumF L) b c))) (@Circle2D_intersection F (NumF L) (mkCircle a' r) (VLine (@Line2D_of_points F (NumF L) b' c'))) /\
  alike (points_image L sx sy) (@Circle2D_intersection F (NumF L) (mkCircle a r) (VCirc (mkCircle d s))) (@Circle2D_intersection F (NumF L) (mkCircle a' r) (VCirc (mkCircle d' s))).
Proof.
  intros L sx sy a b c d r s PE a' b' c' d'. pose proof (mirror_m sx sy a) as A. pose proof (mirror_m sx sy b) as B. pose proof (mirror_m sx sy c) as C. pose proof (mirror_m sx sy d) as D. fold a' in A. fold b' in B. fold c' in C. fold d' in D.
  split; cbn [Circle2D_intersection]; [apply (circle_line_m L sx sy PE false); [exact A|reflexivity|now apply line_m]|apply (circle_circle_m L sx sy PE); cbn [c_center c_radius]; auto].
Qed.
(** A circle of radius 5 about (1, 0) and the line x = 4, mirrored: two points. *)
Example C200_circles_nonvacuous : let z := fun x y => mkVec (F_of_Z x) (F_of_Z y) true in
  pow_even libm_sq /\
  match @Circle2D_intersection F (NumF libm_sq) (mkCircle (mirror true true (z 1%Z 0%Z)) (F_of_Z 5)) (VLine (@Line2D_of_points F (NumF libm_sq) (mirror true true (z 4%Z 0%Z)) (mirror true true (z 4%Z 1%Z)))) with
  | Ok [p; q] => Beqb (vx p) (F_of_Z (-4)) && Beqb (vy p) (F_of_Z 4) && Beqb (vx q) (F_of_Z (-4)) && Beqb (vy q) (F_of_Z (-4)) | _ => false end = true.
Proof. intros z. split; [apply C134_nonvacuous|]. vm_compute. reflexivity. Qed.
