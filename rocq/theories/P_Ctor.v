(** * P_Ctor: copying vector operations (C126), constructor dispatch (C127 lines,
    C39 segments, C64 rectangles), validity of triangles in doubles (C47),
    equality of sectors (C66), triangles and rays (C128) *)
From Coq Require Import ZArith List Bool String Reals Lra Lia Psatz.
From Flocq Require Import Core BinarySingleNaN.
From Verif Require Import Base Types NumR NumF R_Tac Spec Abs M_Angle M_Vector M_Line M_Ray M_Triangle M_Triangle2 M_Segment M_Circle M_Sector M_Rect
  L_Angle L_Trig P_Angle P_Vector P_Line L_Seg P_Segment P_Ray P_Triangle P_Circle P_Rect P_Sector P_Elem.
Import ListNotations.
Local Open Scope R_scope.

(** ** C126: operations that return a new vector *)
Theorem C126_copies_R : forall (v : vec R) (k : R),
  pt (Vector2D_reverse_vector v) = (- vx v, - vy v) /\
  (norm (pt v) > 1/1000000 ->
     (exists w, Vector2D_set_length_vector v k = Ok w /\ pt w = (k / norm (pt v) * vx v, k / norm (pt v) * vy v) /\ norm (pt w) = Rabs k) /\
     (exists u, Vector2D_normalize_vector v = Ok u /\ pt u = (1 / norm (pt v) * vx v, 1 / norm (pt v) * vy v) /\ norm (pt u) = 1)) /\
  (norm (pt v) <= 1/1000000 ->
     (exists w, Vector2D_set_length_vector v k = Ok w /\ pt w = pt v) /\ (exists u, Vector2D_normalize_vector v = Ok u /\ pt u = pt v)).
Proof.
  intros v k. split; [unfold Vector2D_reverse_vector, Vector2D_reverse, pt; rnum; cbn [vx vy]; apply point_eq; cbn; ring|].
  set (v' := V (vx v) (vy v)). assert (EV : pt v' = pt v) by reflexivity.
  assert (POS : forall l, norm (pt v) > 1/1000000 -> exists w, Vector2D_set_length v' l = Ok w /\ pt w = (l / norm (pt v) * vx v, l / norm (pt v) * vy v) /\ norm (pt w) = Rabs l).
  { intros l HN. assert (EW : exists w, Vector2D_set_length v' l = Ok w /\ pt w = (l / norm (pt v) * vx v, l / norm (pt v) * vy v)).
    { unfold Vector2D_set_length. rewrite r_R. cbn [bind]. rewrite EV. unfold EPSILON. rnum. rewrite Rlt_bool_true by lra. rewrite Rdiv_py_ok by lra. cbn [bind].
      eexists. split; [reflexivity|]. unfold Vector2D_scale, pt. rnum. cbn [vx vy]. apply point_eq; cbn; ring. }
    destruct EW as (w & E1 & E2). exists w. split; [exact E1|]. split; [exact E2|].
    assert (N2 : norm2 (pt v) = norm (pt v) * norm (pt v)) by (unfold norm; symmetry; apply sqrt_sqrt; apply norm2_nonneg).
    rewrite E2. set (n := norm (pt v)) in *. unfold norm.
    replace (norm2 _) with ((l * / n) * (l * / n) * norm2 (pt v)) by (unfold norm2, pt, px, py, Rdiv; cbn; ring).
    rewrite N2. replace (_ * _) with (Rsqr l) by (unfold Rsqr; field; lra). apply sqrt_Rsqr_abs. }
  split; intros HN.
  - destruct (POS k HN) as (w & W). destruct (POS 1 HN) as (u & U1 & U2 & U3). rewrite Rabs_R1 in U3. split; [now exists w|now exists u].
  - assert (Z : forall l, Vector2D_set_length v' l = Ok v') by (intros l; apply C14_set_length_R; exact HN).
    split; [exists v'|exists v']; (split; [apply Z|exact EV]).
Qed.
Example C126_nonvacuous : norm (pt (mkVec 3 4 true)) > 1/1000000 /\ norm (pt (mkVec 0 0 true)) <= 1/1000000.
Proof.
  unfold norm, norm2, pt, px, py; cbn. split; [|replace (_ + _) with 0 by ring; rewrite sqrt_0; lra].
  replace (_ + _) with (5 * 5) by ring. rewrite sqrt_square by lra. lra.
Qed.

(** ** C127: the forms of Line2D(...) *)
Section Kw.
  Context {T : Type}.
  Lemma kw_get_in k (v : val T) kw : NoDup (map fst kw) -> In (k, v) kw -> kw_get k kw = Some v.
  Proof.
    induction kw as [|[k' v'] kw IH]; [easy|]. cbn [map fst kw_get]. intros ND HI. inversion ND as [|x y N1 N2]; subst.
    destruct HI as [[= -> ->]|HI]; [now rewrite String.eqb_refl|]. destruct (String.eqb_spec k k') as [->|]; [|now apply IH].
    exfalso. apply N1. now apply (in_map fst) in HI.
  Qed.
  Lemma kw_in_iff k (kw : list (string * val T)) : kw_in k kw = true <-> In k (map fst kw).
  Proof.
    unfold kw_in. induction kw as [|[k' v'] kw IH]; [easy|]. cbn [map fst kw_get In]. destruct (String.eqb_spec k k') as [->|N]; [split; auto|].
    rewrite IH. split; [auto|]. intros [E|E]; [now destruct N|exact E].
  Qed.
  Lemma kw_get_none k (kw : list (string * val T)) : ~ In k (map fst kw) -> kw_get k kw = None.
  Proof. rewrite <- kw_in_iff. unfold kw_in. destruct (kw_get k kw); [intros N; now destruct N|reflexivity]. Qed.
End Kw.
Theorem C127_line_forms : forall (T : Type) (N : Num T) (args : list (val T)) (kw : list (string * val T)) (a b c d : T) (dir : angle T) (p q : vec T) (l : line T),
  let has k := In k (map fst kw) in
  (* positional *)
  Line2D_init [VNum a; VNum b; VNum c] [] = Ok (mkLine a b c) /\
  Line2D_init [VLine l] [] = Ok l /\
  (Line2D_init args [] = Ok l ->
     (exists a b c, args = [VNum a; VNum b; VNum c]) \/ (exists p q, args = [VVec p; VVec q]) \/
     (exists p d, args = [VVec p; VNum d]) \/ (exists p d, args = [VVec p; VAng d]) \/ args = [VLine l]) /\
  (* by keyword: positional arguments are ignored, coefficients win over two points, two points over point and angle, these over a line *)
  (NoDup (map fst kw) ->
     (In ("a"%string, VNum a) kw -> In ("b"%string, VNum b) kw -> In ("c"%string, VNum c) kw -> Line2D_init args kw = Ok (mkLine a b c)) /\
     (~ (has "a"%string /\ has "b"%string /\ has "c"%string) ->
        (In ("p1"%string, VVec p) kw -> In ("p2"%string, VVec q) kw -> Line2D_init args kw = Line2D_init [VVec p; VVec q] []) /\
        (~ (has "p1"%string /\ has "p2"%string) ->
           (In ("p"%string, VVec p) kw -> In ("a"%string, VNum d) kw -> Line2D_init args kw = Line2D_init [VVec p; VNum d] []) /\
           (In ("p"%string, VVec p) kw -> In ("a"%string, VAng dir) kw -> Line2D_init args kw = Line2D_init [VVec p; VAng dir] []) /\
           (~ (has "p"%string /\ has "a"%string) ->
              (In ("l"%string, VLine l) kw -> Line2D_init args kw = Ok l) /\
              (kw <> [] -> ~ has "l"%string -> Line2D_init args kw = Raise GenericException))))).
Proof.
  intros T N args kw a b c d dir p q l has.
  assert (EL : mkLine (l_a l) (l_b l) (l_c l) = l) by now destruct l.
  split; [reflexivity|]. split; [cbn; now rewrite EL|]. split.
  { destruct args as [|x [|y [|z [|u args]]]]; cbn; try discriminate.
    - destruct x; try discriminate. intros E; injection E as E; rewrite <- E. do 4 right. now destruct l0.
    - destruct x; try discriminate; destruct y; try discriminate; intros _; eauto 8.
    - destruct x; try discriminate; destruct y; try discriminate; destruct z; try discriminate. intros _. eauto 8.
    - destruct x; try discriminate; destruct y; try discriminate; destruct z; discriminate. }
  intros ND. assert (EK : kw = [] \/ exists k0 kw0, kw = k0 :: kw0) by (destruct kw; eauto). destruct EK as [EK|(k0 & kw0 & EK)].
  { rewrite EK. split; [easy|]. intros _. split; [easy|]. intros _. split; [easy|]. split; [easy|]. intros _. split; [easy|]. intros K; now destruct K. }
  assert (U : Line2D_init args kw =
        (if kw_in "a" kw && kw_in "b" kw && kw_in "c" kw then
          match kw_get "a" kw, kw_get "b" kw, kw_get "c" kw with
          | Some (VNum a), Some (VNum b), Some (VNum c) => Ok (mkLine a b c)
          | _, _, _ => Raise TypeError
          end
        else if kw_in "p1" kw && kw_in "p2" kw then
          match kw_get "p1" kw, kw_get "p2" kw with
          | Some (VVec p), Some (VVec q) => Ok (Line2D_of_points p q)
          | _, _ => Raise AttributeError
          end
        else if kw_in "p" kw && kw_in "a" kw then
          match kw_get "p" kw, kw_get "a" kw with
          | Some (VVec p), Some (VAng d) => Line2D_of_angle p (AA d)
          | Some (VVec p), Some (VNum d) => Line2D_of_angle p (AN d)
          | Some _, Some (VAng d) => bind (Line2D_of_angle (V (num 0) (num 0)) (AA d)) (fun _ => Raise AttributeError)
          | Some _, Some (VNum d) => bind (Line2D_of_angle (V (num 0) (num 0)) (AN d)) (fun _ => Raise AttributeError)
          | _, _ => Raise TypeError
          end
        else match kw_get "l" kw with
             | Some (VLine l) => Ok (mkLine (l_a l) (l_b l) (l_c l))
             | Some (VTri _) => Raise TypeError
             | Some _ => Raise AttributeError
             | None => Raise GenericException
             end)) by (rewrite EK; reflexivity).
  rewrite U. clear U.
  assert (HI : forall k v, In (k, v) kw -> kw_in k kw = true) by (intros k v H; apply kw_in_iff; now apply (in_map fst) in H).
  assert (G : forall k v, In (k, v) kw -> kw_get k kw = Some v) by (intros; now apply kw_get_in).
  assert (B2 : forall k k', ~ (has k /\ has k') -> kw_in k kw && kw_in k' kw = false).
  { intros k k' H. apply not_true_iff_false. rewrite andb_true_iff, !kw_in_iff. exact H. }
  assert (B3 : ~ (has "a"%string /\ has "b"%string /\ has "c"%string) -> kw_in "a" kw && kw_in "b" kw && kw_in "c" kw = false).
  { intros H. apply not_true_iff_false. rewrite !andb_true_iff, !kw_in_iff. tauto. }
  split; [|intros H1; rewrite (B3 H1); split; [|intros H2; rewrite (B2 _ _ H2); split; [|split; [|intros H3; rewrite (B2 _ _ H3); split]]]].
  - intros I1 I2 I3. rewrite (HI _ _ I1), (HI _ _ I2), (HI _ _ I3), (G _ _ I1), (G _ _ I2), (G _ _ I3). reflexivity.
  - intros I1 I2. rewrite (HI _ _ I1), (HI _ _ I2), (G _ _ I1), (G _ _ I2). reflexivity.
  - intros I1 I2. rewrite (HI _ _ I1), (HI _ _ I2), (G _ _ I1), (G _ _ I2). reflexivity.
  - intros I1 I2. rewrite (HI _ _ I1), (HI _ _ I2), (G _ _ I1), (G _ _ I2). reflexivity.
  - intros I1. rewrite (G _ _ I1). now rewrite EL.
  - intros _ H4. now rewrite kw_get_none.
Qed.
Example C127_nonvacuous : let kw := [("p2"%string, VVec (mkVec 1 2 true)); ("p1"%string, VVec (mkVec 0 0 true)); ("a"%string, VNum 3)] in
  NoDup (map fst kw) /\ ~ (In "a"%string (map fst kw) /\ In "b"%string (map fst kw) /\ In "c"%string (map fst kw)) /\
  In ("p1"%string, VVec (mkVec 0 0 true)) kw /\ In ("p2"%string, VVec (mkVec 1 2 true)) kw.
Proof.
  cbn. repeat split; auto; [|intuition discriminate].
  repeat constructor; cbn; intuition discriminate.
Qed.

Lemma bind_inv {A B} (x : res A) (f : A -> res B) b : bind x f = Ok b -> exists a, x = Ok a /\ f a = Ok b.
Proof. destruct x as [a|]; [|discriminate]. intros E. now exists a. Qed.

(** ** C39: the forms of Segment2D(...) *)
Theorem C39_forms : forall (T : Type) (N : Num T) (args : list (val T)) (s : seg T),
  Segment2D_init args = Ok s <->
  (args = [] /\ s = mkSeg (V (num 0) (num 0)) (V (num 0) (num 0))) \/
  (exists p q, args = [VVec p; VVec q] /\ s = mkSeg (V (vx p) (vy p)) (V (vx q) (vy q))) \/
  (exists x1 y1 x2 y2, args = [VNum x1; VNum y1; VNum x2; VNum y2] /\ s = mkSeg (V x1 y1) (V x2 y2)) \/
  (exists p l d w, (args = [VVec p; VNum l; VAng d] /\ Vector2D_from_polar l (AA d) = Ok w \/
                    exists x, args = [VVec p; VNum l; VNum x] /\ Vector2D_from_polar l (AN x) = Ok w /\ d = mkAngle x) /\
     s = mkSeg (V (vx p) (vy p)) (V (nadd (vx p) (vx w)) (nadd (vy p) (vy w)))).
Proof.
  intros T N args s. split.
  - destruct args as [|x [|y [|z [|u [|t args]]]]]; cbn; try discriminate.
    + intros E; injection E as E; subst s. auto.
    + destruct x; discriminate.
    + destruct x; try discriminate; destruct y; try discriminate. intros E; injection E as E; subst. right. left. exists v, v0. auto.
    + destruct x; try discriminate; destruct y; try discriminate; destruct z; try discriminate; unfold Segment2D_of_polar; intros E; apply bind_inv in E as (w & E1 & E2); injection E2 as <-; do 3 right.
      * exists v, x, (mkAngle x0), w. split; [right; exists x0; auto|reflexivity].
      * exists v, x, a, w. split; [left; auto|reflexivity].
    + destruct x; try discriminate; destruct y; try discriminate; destruct z; try discriminate; destruct u; try discriminate. intros E; injection E as E; subst. right. right. left. eauto 8.
    + destruct x; try discriminate; destruct y; try discriminate; destruct z; try discriminate; destruct u; discriminate.
  - intros [[-> ->]|[(p & q & -> & ->)|[(x1 & y1 & x2 & y2 & -> & ->)|(p & l & d & w & [[-> E]|(x & -> & E & ->)] & ->)]]]; try reflexivity;
      cbn; unfold Segment2D_of_polar; rewrite E; reflexivity.
Qed.

Example C39_forms_nonvacuous : Segment2D_init [VVec (mkVec 1 2 true); VVec (mkVec 3 4 false)] = Ok (mkSeg (V 1 2) (V 3 4)) /\
  (exists w, Vector2D_from_polar 5 (AN 30) = Ok w).
Proof. split; [reflexivity|]. eexists. apply from_polar_R. Qed.

(** ** C64: the forms of Rect2D.from_center(...) *)
Theorem C64_from_center_forms : forall (T : Type) (N : Num T) (args : list (val T)) (r : rect T),
  Rect2D_from_center args = Ok r <->
  exists x y l w, (args = [VNum x; VNum y; VNum l; VNum w] \/ (args = [VNum x; VNum l; VNum w] /\ y = x)) /\
    r = Rect2D_of_nums (nsub x (nmul l (nlit 1 2))) (nsub y (nmul w (nlit 1 2))) l w.
Proof.
  intros T N args r. split.
  - destruct args as [|x [|y [|z [|u [|t args]]]]]; cbn; try discriminate.
    + destruct x; discriminate.
    + destruct x; try discriminate; destruct y; discriminate.
    + destruct x; try discriminate; destruct y; try discriminate; destruct z; try discriminate. intros E; injection E as E; subst. exists x, x, x0, x1. split; [right; auto|reflexivity].
    + destruct x; try discriminate; destruct y; try discriminate; destruct z; try discriminate; destruct u; try discriminate. intros E; injection E as E; subst. exists x, x0, x1, x2. split; [left; auto|reflexivity].
    + destruct x; try discriminate; destruct y; try discriminate; destruct z; try discriminate; destruct u; discriminate.
  - intros (x & y & l & w & [->|[-> ->]] & ->); reflexivity.
Qed.

Example C64_from_center_forms_nonvacuous : Rect2D_from_center [VNum 1; VNum 4; VNum 6] = Ok (Rect2D_of_nums (1 - 4 * nlit 1 2) (1 - 6 * nlit 1 2) 4 6).
Proof. reflexivity. Qed.

(** ** C47: when Triangle2D.is_valid() answers True in doubles *)
Theorem C47_is_valid_iff_F : forall (L : libm) (t : triangle F),
  @Triangle2D_is_valid F (NumF L) t = true <->
  v_valid (t_a t) = true /\ v_valid (t_b t) = true /\ v_valid (t_c t) = true /\
  (is_nan (vx (t_a t)) = true \/ is_nan (vy (t_a t)) = true) /\
  (Beqb (vx (t_b t)) (vx (t_c t)) = false \/ Beqb (vy (t_b t)) (vy (t_c t)) = false).
Proof.
  intros L t. unfold Triangle2D_is_valid, Vector2D_eq. cbn [neqb NumF].
  assert (S : forall x : F, Beqb x x = negb (is_nan x)).
  { intros [s|[]| |s m e H]; try reflexivity. rewrite Beqb_correct by reflexivity. now rewrite Req_bool_true. }
  assert (NN : forall x y : F, is_nan x = true -> Beqb x y = false) by (intros [s|[]| |s m e H] y; try discriminate; reflexivity).
  rewrite !S. split.
  - intros H. repeat (apply andb_true_iff in H as [H ?]). repeat split; try assumption.
    + apply negb_true_iff, andb_false_iff in H0. destruct H0 as [K|K]; apply negb_false_iff in K; auto.
    + apply negb_true_iff, andb_false_iff in H1. exact H1.
  - intros (-> & -> & -> & H1 & H2). cbn [andb].
    assert (E1 : Beqb (vx (t_a t)) (vx (t_b t)) && Beqb (vy (t_a t)) (vy (t_b t)) = false).
    { apply andb_false_iff. destruct H1 as [K|K]; [left|right]; now apply NN. }
    assert (E2 : Beqb (vx (t_b t)) (vx (t_c t)) && Beqb (vy (t_b t)) (vy (t_c t)) = false) by now apply andb_false_iff.
    rewrite E1, E2. cbn [negb andb]. destruct H1 as [-> | ->]; cbn; [reflexivity|]. now rewrite andb_false_r.
Qed.

Example C47_is_valid_iff_nonvacuous : forall L : libm,
  @Triangle2D_is_valid F (NumF L) (mkTri (mkVec B754_nan (F_of_Z 1) true) (mkVec (F_of_Z 2) (F_of_Z 3) true) (mkVec (F_of_Z 2) (F_of_Z 4) true)) = true /\
  @Triangle2D_is_valid F (NumF L) (mkTri (mkVec (F_of_Z 0) (F_of_Z 1) true) (mkVec (F_of_Z 2) (F_of_Z 3) true) (mkVec (F_of_Z 2) (F_of_Z 4) true)) = false.
Proof. intros L. split; vm_compute; reflexivity. Qed.

(** ** C66: equality of sectors
    [==] compares both radii with the other sector's inner one. *)
Theorem C66_eq_R : forall s o : sector R, in_range (sec_start o) -> in_range (sec_end o) ->
  exists b, Sector2D_eq s o = Ok b /\
    (b = true <-> near (vx (sec_center s)) (vx (sec_center o)) /\ near (vy (sec_center s)) (vy (sec_center o)) /\
       near (a_degree (sec_start s)) (a_degree (sec_start o)) /\ near (a_degree (sec_end s)) (a_degree (sec_end o)) /\
       near (sec_min_r s) (sec_min_r o) /\ near (sec_max_r s) (sec_min_r o)).
Proof.
  intros s o R1 R2. unfold Sector2D_eq, Sector2D_radius_min, Sector2D_radius_max, Vector2D_equals_weakly, AngleDeg_eq, ang_num.
  rewrite !degree_in by assumption. cbn [bind]. unfold EPSILON. rnum. unfold near.
  repeat match goal with |- context [Rlt_bool ?x ?y] => destruct (Rlt_bool_spec x y) end; cbn [andb]; eexists; (split; [reflexivity|]); split; intros; try discriminate; try lra; repeat split; try lra.
Qed.
Example C66_eq_nonvacuous : in_range (mkAngle 30) /\ in_range (mkAngle (-90)).
Proof. unfold in_range; cbn; lra. Qed.

(** ** C128: Triangle2D.intersection with a ray
    The result is the line's if that has no point, or if its first point is
    ahead of the ray; otherwise it says there is no point at all. *)
Theorem C128_triangle_ray_R : forall (t : triangle R) (r : ray R) (l : line R),
  Line2D_init [VVec (ray_origin r); VAng (ray_dir r)] [] = Ok l ->
  (forall e, Triangle2D_intersection t (VLine l) = Raise e -> Triangle2D_intersection t (VRay r) = Raise e) /\
  (forall n v w, Triangle2D_intersection t (VLine l) = Ok (mkTriSol n v w) ->
     exists m v', Triangle2D_intersection t (VRay r) = Ok (mkTriSol m v' w) /\ (n <= 2)%nat /\
       (n = 0%nat -> m = 0%nat /\ v' = v) /\
       (lpts l (pt v) -> ~ tiny (vx v - vx (ray_origin r)) (vy v - vy (ray_origin r)) ->
          (rpts r (pt v) -> m = n /\ v' = v) /\ (n <> 0%nat -> ~ rpts r (pt v) -> m = 0%nat /\ v' = w))).
Proof.
  intros t r l EL. cbn [Triangle2D_intersection]. unfold Triangle2D_intersection_ray.
  assert (ER : Ray2D_line r = Ok l) by (rewrite <- EL; reflexivity). rewrite ER. cbn [bind].
  split; [intros e ->; reflexivity|]. intros n v w E. rewrite E. cbn [bind ts_n ts_1 ts_2].
  assert (N2 : (n <= 2)%nat).
  { destruct (C48_intersection_line_R t l) as (v1 & v2 & v3 & _ & _ & _ & K1 & K2 & K3 & K4 & K5 & K6 & K7). cbn [Triangle2D_intersection] in *. rewrite E in *.
    destruct (v_valid v1), (v_valid v2), (v_valid v3);
      try (specialize (K1 eq_refl eq_refl); discriminate);
      try (destruct (K2 eq_refl eq_refl eq_refl) as (x & [= -> _ _] & _ & K); lia); try (destruct (K3 eq_refl eq_refl eq_refl) as (x & [= -> _ _] & _ & K); lia);
      try (destruct (K4 eq_refl eq_refl eq_refl) as (x & [= -> _ _]); lia); try (destruct (K5 eq_refl eq_refl eq_refl) as (x & [= -> _ _]); lia);
      try (destruct (K6 eq_refl eq_refl eq_refl) as (x & [= -> _ _]); lia); try (destruct (K7 eq_refl eq_refl eq_refl) as (x & y & [= -> _ _]); lia). }
  assert (EB : exists b, Ray2D_in_right_dir_thr r v 1 = Ok b /\ (lpts l (pt v) -> ~ tiny (vx v - vx (ray_origin r)) (vy v - vy (ray_origin r)) -> (b = true <-> rpts r (pt v)))).
  { destruct (ray_line_R r) as (l' & E1 & _ & _ & CR). rewrite ER in E1. injection E1 as E1. subst l'.
    assert (TB : exists b, Ray2D_in_right_dir_thr r v 1 = Ok b) by (destruct (C40_in_right_dir_R r v 1 ltac:(lra)) as (b & K & _); eauto).
    destruct TB as (b & TB). exists b. split; [exact TB|]. intros HL NT. apply CR in HL. destruct HL as (k & HK).
    destruct (in_right_dir_carrier_thr r v k 1 ltac:(lra) HK) as (b' & E2 & E3 & _). rewrite TB in E2. injection E2 as E2. subst b'. rewrite (E3 NT). split.
    - intros KP. exists k. split; [lra|exact HK].
    - intros (u & Hu & Eu). rewrite HK in Eu. injection Eu as Q1 Q2. assert (SC := sin2_cos2 (rad (a_degree (ray_dir r)))). unfold Rsqr in SC.
      assert (KU : k = u).
      { set (c := cos _) in *. set (s := sin _) in *. assert (K1 : k * c = u * c) by lra. assert (K2 : k * s = u * s) by lra.
        transitivity (k * c * c + k * s * s); [transitivity (k * (s * s + c * c)); [rewrite SC|]; ring|]. rewrite K1, K2. transitivity (u * (s * s + c * c)); [ring|rewrite SC; ring]. }
      subst u. destruct Hu as [|Z]; [assumption|]. exfalso. apply NT. injection HK as P1 P2. rewrite P1, P2, <- Z. unfold tiny.
      replace (vx (ray_origin r) + 0 * cos (rad (a_degree (ray_dir r))) - vx (ray_origin r)) with 0 by ring.
      replace (vy (ray_origin r) + 0 * sin (rad (a_degree (ray_dir r))) - vy (ray_origin r)) with 0 by ring. rewrite Rabs_R0. lra. }
  destruct EB as (b & EB & HB). change (num 1) with 1 in *.
  assert (RES : exists m v', (sol1 <- (if Nat.ltb 1 n then ok <- Ray2D_in_right_dir_thr r v 1;; Ok (if negb ok then mkTriSol (n - 1) v w else mkTriSol n v w) else Ok (mkTriSol n v w));;
     (if Nat.ltb 0 (ts_n sol1) then ok <- Ray2D_in_right_dir_thr r (ts_1 sol1) 1;; Ok (if negb ok then mkTriSol (ts_n sol1 - 1) (ts_2 sol1) (ts_2 sol1) else sol1) else Ok sol1))%py = Ok (mkTriSol m v' w) /\
     (n = 0%nat -> m = 0%nat /\ v' = v) /\ (b = true -> m = n /\ v' = v) /\ (n <> 0%nat -> b = false -> m = 0%nat /\ v' = w)).
  { destruct n as [|[|[|n]]]; [| | |lia]; cbn [Nat.ltb Nat.leb bind ts_n ts_1 ts_2]; rewrite ?EB; cbn [bind]; destruct b; cbn [negb bind ts_n ts_1 ts_2 Nat.ltb Nat.leb Nat.sub]; rewrite ?EB; cbn [bind negb];
      do 2 eexists; (split; [reflexivity|]); repeat split; try easy. }
  destruct RES as (m & v' & E1 & E2 & E3 & E4). exists m, v'. split; [exact E1|]. split; [exact N2|]. split; [exact E2|].
  intros HL NT. specialize (HB HL NT). split; [intros HR; apply E3; now apply HB|]. intros N0 HR. apply E4; [exact N0|]. apply not_true_iff_false. now rewrite HB.
Qed.

(** So a ray from inside a triangle that leaves it through its third side can
    be told to leave it nowhere. *)
Theorem C128_from_inside_refuted : exists (t : triangle R) (r : ray R) (q : point) (v w : vec R),
  in_triangle (pt (t_a t)) (pt (t_b t)) (pt (t_c t)) (pt (ray_origin r)) /\
  rpts r q /\ on_seg (pt (t_c t)) (pt (t_a t)) q /\
  Triangle2D_intersection t (VRay r) = Ok (mkTriSol 0 v w).
Proof.
  set (t := mkTri (mkVec 0 3 true) (mkVec (-3) (-3) true) (mkVec 3 (-3) true) : triangle R).
  set (r := mkRay (mkVec 0 0 true) (mkAngle 0) : ray R). exists t, r, (3/2, 0).
  assert (RZ : rad 0 = 0) by (unfold rad; lra).
  assert (CR : forall x : R, rpts r (x, 0) <-> 0 <= x).
  { intros x. unfold r. split.
    - intros (k & Hk & E). cbn in E. rewrite RZ, cos_0, sin_0 in E. injection E as E. lra.
    - intros Hx. exists x. split; [exact Hx|]. cbn. rewrite RZ, cos_0, sin_0. apply point_eq; cbn; lra. }
  destruct (ray_line_R r) as (l & EL & Ea & Eb & HC). cbn [r ray_dir a_degree] in Ea, Eb. rewrite RZ, sin_0 in Ea. rewrite RZ, cos_0 in Eb.
  assert (LX : forall x y, lpts l (x, y) <-> y = 0).
  { intros x y. rewrite HC. unfold r. split.
    - intros (k & E). cbn in E. rewrite RZ, cos_0, sin_0 in E. injection E as E1 E2. lra.
    - intros ->. exists x. cbn. rewrite RZ, cos_0, sin_0. apply point_eq; cbn; lra. }
  destruct (C48_intersection_line_R t l) as (v1 & v2 & v3 & E1 & E2 & E3 & _ & K2 & _).
  destruct (C37_intersection_line_R (Segment2D_of_points (t_a t) (t_b t)) l) as (w1 & F1 & _ & G1). rewrite E1 in F1. injection F1 as F1. subst w1.
  destruct (C37_intersection_line_R (Segment2D_of_points (t_b t) (t_c t)) l) as (w2 & F2 & G2 & _). rewrite E2 in F2. injection F2 as F2. subst w2.
  destruct (C37_intersection_line_R (Segment2D_of_points (t_c t) (t_a t)) l) as (w3 & F3 & _ & G3). rewrite E3 in F3. injection F3 as F3. subst w3.
  destruct (G1) with (q := ((-3/2, 0) : point)) as [V1 P1].
  { unfold Segment2D_line, Segment2D_of_points, Line2D_is_parallel, Line2D_of_points, EPSILON. rnum. cbn. rewrite Ea, Eb. apply Rlt_bool_false. unfold Rabs; destruct Rcase_abs; lra. }
  { exists (1/2). split; [lra|]. unfold lerp; cbn. apply point_eq; cbn; lra. }
  { now apply LX. }
  destruct (G3) with (q := ((3/2, 0) : point)) as [V3 P3].
  { unfold Segment2D_line, Segment2D_of_points, Line2D_is_parallel, Line2D_of_points, EPSILON. rnum. cbn. rewrite Ea, Eb. apply Rlt_bool_false. unfold Rabs; destruct Rcase_abs; lra. }
  { exists (1/2). split; [lra|]. unfold lerp; cbn. apply point_eq; cbn; lra. }
  { now apply LX. }
  assert (V2 : v_valid v2 = false).
  { apply not_true_iff_false. intros V2. destruct (G2 V2) as (A1 & (k & A2) & _). unfold lerp in A2. cbn in A2. rewrite A2 in A1. apply LX in A1. lra. }
  destruct (K2 V1 V2 V3) as (n & EN & _ & N12).
  destruct (C128_triangle_ray_R t r l) as [_ H]; [exact EL|]. destruct (H n v1 v3 EN) as (m & v' & RES & _ & _ & HH).
  exists v', v3. unfold pt in P1. injection P1 as X1 Y1.
  destruct HH as [_ HH]; [unfold pt; rewrite X1, Y1; now apply LX|cbn; rewrite X1; intros [KT _]; unfold Rabs in KT; destruct Rcase_abs; lra|].
  destruct HH as [-> ->]; [lia|unfold pt; rewrite X1, Y1, CR; lra|].
  split; [|split; [apply CR; lra|split; [|exact RES]]].
  - exists (1/2), (1/4), (1/4). cbn. unfold px, py; cbn. repeat split; lra.
  - exists (1/2). split; [lra|]. unfold lerp; cbn. apply point_eq; cbn; lra.
Qed.
Example C128_nonvacuous : let r := mkRay (mkVec 1 1 true) (mkAngle 0) : ray R in
  (exists l, Line2D_init [VVec (ray_origin r); VAng (ray_dir r)] [] = Ok l) /\
  ~ tiny (vx (mkVec 3 1 true) - vx (ray_origin r)) (vy (mkVec 3 1 true) - vy (ray_origin r)) /\ rpts r (pt (mkVec 3 1 true)).
Proof.
  cbn zeta. split; [|split].
  - destruct (ray_line_R (mkRay (mkVec 1 1 true) (mkAngle 0))) as (l & E & _). exists l. exact E.
  - cbn. intros [K _]. unfold Rabs in K; destruct Rcase_abs; lra.
  - exists 2. split; [lra|]. cbn. unfold rad. replace (0 * PI / 180) with 0 by lra. rewrite ?Rmult_0_l, ?Rdiv_0_l, cos_0, sin_0. apply point_eq; cbn; lra.
Qed.
