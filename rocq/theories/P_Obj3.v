(** * P_Obj3: which objects are shared: exact behaviour of the calls that store
    or return an existing object. *)
From Coq Require Import ZArith List Bool Arith Lia Reals Lra Psatz.
From Flocq Require Import Core.
From Verif Require Import Base Types M_Angle M_Vector M_Line M_Ray M_Triangle
  M_Segment M_Circle M_Sector M_Rect M_Polygon M_Hull M_Heap M_Obj NumR R_Tac Spec Abs Spec3 P_Obj P_Obj2.
Import ListNotations.
Local Open Scope nat_scope.

Section Sharing.
  Context {T : Type} `{Num T}.
  Implicit Types (h : heap T) (v w : vec T).

  Ltac rds := econstructor; look.
  Ltac two := eexists; split; [go | split; [rds | try rds]].

  (** C107: Rect2D(p, size) and assign(p, size) keep the caller's Size2D: a later
      change of it changes the rectangle, and a change of the rectangle changes
      it; the point is copied. *)
  Theorem C107_size_object_shared h p z v (s : size T) :
    nth_error h p = Some (OVec v) -> nth_error h z = Some (OSize s) ->
    exists r h1, obj_rect_new_size p z h = Ok (r, h1) /\
      reads h1 r (WRect (V (vx v) (vy v)) s) /\
      (* changes of the Size2D are seen through the rectangle *)
      (forall l k, exists h2, obj_size_mut (SzAssign l k) z h1 = Ok (tt, h2) /\
                   reads h2 r (WRect (V (vx v) (vy v)) (mkSize (nabs l) (nabs k)))) /\
      (* changes of the rectangle are seen through the Size2D *)
      (forall l, exists h2, obj_rect_mut (RSetLength l) r h1 = Ok (tt, h2) /\
                 reads h2 z (WSize (mkSize (nabs l) (sz_width s)))) /\
      (* changes of the point are not *)
      (forall x y, exists h2, obj_vec_mut (VAssign x y) p h1 = Ok (tt, h2) /\
                   reads h2 r (WRect (V (vx v) (vy v)) s)).
  Proof.
    intros Ep Ez. bounds. assert (p <> z) by congruence.
    do 2 eexists. split; [go|]. split; [rds|]. split; [|split].
    - intros l k. eexists. split; [go|]. rds.
    - intros l. eexists. split; [go|]. rds.
    - intros x y. eexists. split; [go|]. rds.
  Qed.

  (** Two rectangles made with one Size2D always have the same size: setting
      the length of one sets the length of the other. *)
  Theorem C107_two_rects_one_size h p q z v w (s : size T) l :
    nth_error h p = Some (OVec v) -> nth_error h q = Some (OVec w) -> nth_error h z = Some (OSize s) ->
    exists r1 r2 h1 h2 h3, obj_rect_new_size p z h = Ok (r1, h1) /\
      obj_rect_new_size q z h1 = Ok (r2, h2) /\ r1 <> r2 /\
      obj_rect_mut (RSetLength l) r1 h2 = Ok (tt, h3) /\
      reads h3 r1 (WRect (V (vx v) (vy v)) (mkSize (nabs l) (sz_width s))) /\
      reads h3 r2 (WRect (V (vx w) (vy w)) (mkSize (nabs l) (sz_width s))).
  Proof.
    intros Ep Eq Ez. bounds.
    do 5 eexists. split; [go|]. split; [go|]. split; [len|]. split; [go|]. split; rds.
  Qed.

  (** The accessors with a trailing underscore return the component itself:
      assigning through the result changes the object. *)
  Theorem C107_underscore_accessors h :
    (forall s a b v w x y, nth_error h s = Some (OSeg a b) -> nth_error h a = Some (OVec v) ->
      nth_error h b = Some (OVec w) -> a <> b ->
      obj_seg_origin_ s h = Ok (a, h) /\ obj_seg_terminal_ s h = Ok (b, h) /\
      (exists h', obj_vec_mut (VAssign x y) a h = Ok (tt, h') /\
         reads h' s (WSeg (mkSeg (mkVec x y (v_valid v)) w))) /\
      (exists h', obj_vec_mut (VAssign x y) b h = Ok (tt, h') /\
         reads h' s (WSeg (mkSeg v (mkVec x y (v_valid w)))))) /\
    (forall r t z b v s x y, nth_error h r = Some (ORect t z b) -> nth_error h t = Some (OVec v) ->
      nth_error h z = Some (OSize s) ->
      obj_rect_top_left_ r h = Ok (t, h) /\ obj_rect_size_ r h = Ok (z, h) /\
      (exists h', obj_vec_mut (VAssign x y) t h = Ok (tt, h') /\
         reads h' r (WRect (mkVec x y (v_valid v)) s)) /\
      (exists h', obj_size_mut (SzAssign x y) z h = Ok (tt, h') /\
         reads h' r (WRect v (mkSize (nabs x) (nabs y))))) /\
    (forall t a b c u v w x y, nth_error h t = Some (OTri a b c) -> nth_error h a = Some (OVec u) ->
      nth_error h b = Some (OVec v) -> nth_error h c = Some (OVec w) -> a <> b -> a <> c -> b <> c ->
      obj_tri_corner_ CornerA t h = Ok (a, h) /\ obj_tri_corner_ CornerB t h = Ok (b, h) /\
      obj_tri_corner_ CornerC t h = Ok (c, h) /\
      (exists h', obj_vec_mut (VAssign x y) a h = Ok (tt, h') /\
         reads h' t (WTri (mkTri (mkVec x y (v_valid u)) v w))) /\
      (exists h', obj_vec_mut (VAssign x y) b h = Ok (tt, h') /\
         reads h' t (WTri (mkTri u (mkVec x y (v_valid v)) w))) /\
      (exists h', obj_vec_mut (VAssign x y) c h = Ok (tt, h') /\
         reads h' t (WTri (mkTri u v (mkVec x y (v_valid w)))))) /\
    (forall c a k v x y, nth_error h c = Some (OCirc a k) -> nth_error h a = Some (OVec v) ->
      obj_circ_center_ c h = Ok (a, h) /\
      (exists h', obj_vec_mut (VAssign x y) a h = Ok (tt, h') /\
         reads h' c (WCirc (mkCircle (mkVec x y (v_valid v)) k)))) /\
    (forall r a b v d x y, nth_error h r = Some (ORay a b) -> nth_error h a = Some (OVec v) ->
      nth_error h b = Some (OAng d) ->
      obj_ray_origin_ r h = Ok (a, h) /\ obj_ray_dir_ r h = Ok (b, h) /\
      (exists h', obj_vec_mut (VAssign x y) a h = Ok (tt, h') /\
         reads h' r (WRay (mkRay (mkVec x y (v_valid v)) d))) /\
      (exists h', obj_ang_mut AReverse b h = Ok (tt, h') /\
         reads h' r (WRay (mkRay v (AngleDeg_reverse d))))) /\
    (forall k c m n a b v d f x y, nth_error h k = Some (OSector c m n a b) ->
      nth_error h c = Some (OVec v) -> nth_error h a = Some (OAng d) -> nth_error h b = Some (OAng f) ->
      a <> b ->
      obj_sector_center_ k h = Ok (c, h) /\ obj_sector_start_ k h = Ok (a, h) /\
      obj_sector_end_ k h = Ok (b, h) /\
      (exists h', obj_vec_mut (VAssign x y) c h = Ok (tt, h') /\
         reads h' k (WSector (mkSector (mkVec x y (v_valid v)) m n d f))) /\
      (exists h', obj_ang_mut AReverse a h = Ok (tt, h') /\
         reads h' k (WSector (mkSector v m n (AngleDeg_reverse d) f))) /\
      (exists h', obj_ang_mut AReverse b h = Ok (tt, h') /\
         reads h' k (WSector (mkSector v m n d (AngleDeg_reverse f))))).
  Proof.
    repeat match goal with |- _ /\ _ => split end; intros;
      repeat match goal with |- _ /\ _ => split end;
      try (go; fail); eexists; (split; [go|rds]).
  Qed.

  Definition vecs h (xs : list ref) (vs : list (vec T)) :=
    Forall2 (fun x v => nth_error h x = Some (OVec v)) xs vs.
  Lemma vecs_in h xs vs x : vecs h xs vs -> In x xs -> exists v, nth_error h x = Some (OVec v).
  Proof. induction 1; cbn; [tauto|]. intros [<-|?]; eauto. Qed.
  Lemma vecs_nth h xs vs i q w : vecs h xs vs -> nth_error xs i = Some q -> nth_error vs i = Some w ->
    nth_error h q = Some (OVec w).
  Proof.
    intros F. revert i. induction F; intros [|i]; cbn; intros; try discriminate; [congruence|eauto].
  Qed.
  Lemma vecs_other h xs vs q o : vecs h xs vs -> ~ In q xs -> vecs (list_set h q o) xs vs.
  Proof.
    unfold vecs. induction 1; cbn; intro Hn; constructor; [|apply IHForall2; tauto].
    rewrite nth_set_ne; auto.
  Qed.
  Lemma vecs_set h xs vs i q w : vecs h xs vs -> NoDup xs -> nth_error xs i = Some q ->
    vecs (list_set h q (OVec w)) xs (list_set vs i w).
  Proof.
    unfold vecs. intros F. revert i. induction F as [|x v xs vs E F IH]; intros [|i]; cbn; intros Hd Ei;
      try discriminate; inversion Hd; subst.
    - injection Ei as ->. constructor; [apply nth_set_eq; eapply nth_lt; eauto|].
      now apply vecs_other.
    - constructor; auto. rewrite nth_set_ne; auto. intros ->. apply nth_error_In in Ei. tauto.
  Qed.
  Lemma vecs_new h xs vs o : vecs h xs vs -> vecs (h ++ [o]) xs vs.
  Proof. apply F2_mono. intros. now apply nth_app_old. Qed.
  Lemma vecs_lt h xs vs x : vecs h xs vs -> In x xs -> x < length h.
  Proof. intros F Hx. destruct (vecs_in _ _ _ _ F Hx) as [v Hv]. eapply nth_lt; eauto. Qed.

  (** C109: Polygon2D(list) makes a new list of the same vertex objects:
      appending to the list later does not change the polygon, changing a
      vertex does. *)
  Theorem C109_polygon_of_list_shares_vertices h l xs vs :
    nth_error h l = Some (OList xs) -> vecs h xs vs -> NoDup xs ->
    exists p h1, obj_poly_new_list l h = Ok (p, h1) /\ reads h1 p (WPoly vs) /\
      (forall q, exists h2, obj_list_append l q h1 = Ok (tt, h2) /\ reads h2 p (WPoly vs)) /\
      (forall i q w x y, nth_error xs i = Some q -> nth_error vs i = Some w ->
         exists h2, obj_vec_mut (VAssign x y) q h1 = Ok (tt, h2) /\
                    reads h2 p (WPoly (list_set vs i (mkVec x y (v_valid w))))).
  Proof.
    intros El Ef Hd. bounds.
    do 2 eexists. split; [go|]. split; [|split].
    - eapply reads_poly; [look|look|]. now do 2 apply vecs_new.
    - intros q. eexists. split; [go|]. eapply reads_poly; [look|look|].
      apply vecs_other; [now do 2 apply vecs_new|].
      intro C. destruct (vecs_in _ _ _ _ Ef C) as [v Ev]. congruence.
    - intros i q w x y Ei Ew. pose proof (vecs_nth _ _ _ _ _ _ Ef Ei Ew) as Eq. bounds.
      eexists. split; [go|]. eapply reads_poly; [look|look|].
      apply vecs_set; auto. now do 2 apply vecs_new.
  Qed.

  (** Polygon2D(p, q, ...) copies the points: no later call on them changes the
      polygon; this is part of C105. *)

  (** add_vertex stores the caller's object. *)
  Theorem C109_assign_shares h p l0 l xs vs :
    nth_error h p = Some (OPoly l0) -> nth_error h l = Some (OList xs) -> vecs h xs vs -> NoDup xs ->
    xs <> [] ->
    exists h1, obj_poly_assign p l h = Ok (tt, h1) /\ reads h1 p (WPoly vs) /\
      (forall q, exists h2, obj_list_append l q h1 = Ok (tt, h2) /\ reads h2 p (WPoly vs)) /\
      (forall i q w x y, nth_error xs i = Some q -> nth_error vs i = Some w ->
         exists h2, obj_vec_mut (VAssign x y) q h1 = Ok (tt, h2) /\
                    reads h2 p (WPoly (list_set vs i (mkVec x y (v_valid w))))).
  Proof.
    intros Ep El Ef Hd Hx. bounds. assert (p <> l) by congruence.
    assert (Hp : ~ In p xs) by (intro C; destruct (vecs_in _ _ _ _ Ef C); congruence).
    assert (Hv : vecs (list_set (h ++ [OList xs]) p (OPoly (length h))) xs vs)
      by (apply vecs_other; auto; now apply vecs_new).
    exists (list_set (h ++ [OList xs]) p (OPoly (length h))).
    split; [destruct xs; [easy|go]|]. split; [|split].
    - eapply reads_poly; [look|look|]. easy.
    - intros q. eexists. split; [go|]. eapply reads_poly; [look|look|].
      apply vecs_other; [easy|].
      intro C. destruct (vecs_in _ _ _ _ Ef C) as [v Ev]. congruence.
    - intros i q w x y Ei Ew. pose proof (vecs_nth _ _ _ _ _ _ Ef Ei Ew) as Eq. bounds.
      assert (p <> q) by congruence.
      eexists. split; [go|]. eapply reads_poly; [look|look|].
      apply vecs_set; auto.
  Qed.

  (** Assigning an empty list is ignored: nothing changes. *)
  Theorem C109_assign_empty h p l0 l :
    nth_error h p = Some (OPoly l0) -> nth_error h l = Some (OList []) ->
    obj_poly_assign p l h = Ok (tt, h).
  Proof. intros Ep El. go. Qed.
  Theorem C109_add_vertex_shares h p l xs vs q w :
    nth_error h p = Some (OPoly l) -> nth_error h l = Some (OList xs) -> vecs h xs vs ->
    nth_error h q = Some (OVec w) -> ~ In q xs ->
    exists h1, obj_poly_add_vertex p q h = Ok (tt, h1) /\ reads h1 p (WPoly (vs ++ [w])) /\
      (forall x y, exists h2, obj_vec_mut (VAssign x y) q h1 = Ok (tt, h2) /\
         reads h2 p (WPoly (vs ++ [mkVec x y (v_valid w)]))).
  Proof.
    intros Ep El Ef Eq Hn. bounds. assert (p <> l) by congruence. assert (q <> l) by congruence.
    assert (Hl : ~ In l xs) by (intro C; destruct (vecs_in _ _ _ _ Ef C); congruence).
    eexists. split; [go|]. split.
    - eapply reads_poly; [look|look|]. apply Forall2_app; [now apply vecs_other|]. constructor; [look|constructor].
    - intros x y. eexists. split; [go|]. eapply reads_poly; [look|look|].
      apply Forall2_app; [apply vecs_other; auto; now apply vecs_other|]. constructor; [look|constructor].
  Qed.

  (** vertices() is a new list of the same objects, vertices_() the list
      itself. *)
  Theorem C109_vertices_shares h p l xs vs q w :
    nth_error h p = Some (OPoly l) -> nth_error h l = Some (OList xs) -> vecs h xs vs ->
    nth_error h q = Some (OVec w) ->
    (exists c h1, obj_poly_vertices p h = Ok (c, h1) /\ nth_error h1 c = Some (OList xs) /\
       exists h2, obj_list_append c q h1 = Ok (tt, h2) /\ reads h2 p (WPoly vs)) /\
    obj_poly_vertices_ p h = Ok (l, h) /\
    (exists h2, obj_list_append l q h = Ok (tt, h2) /\ reads h2 p (WPoly (vs ++ [w]))).
  Proof.
    intros Ep El Ef Eq. bounds. assert (p <> l) by congruence. assert (q <> l) by congruence.
    assert (Hl : ~ In l xs) by (intro C; destruct (vecs_in _ _ _ _ Ef C); congruence).
    split; [|split].
    - do 2 eexists. split; [go|]. split; [look|]. eexists. split; [go|].
      eapply reads_poly; [look|look|]. apply vecs_other; [now apply vecs_new|].
      intro C. pose proof (vecs_lt _ _ _ _ Ef C). lia.
    - go.
    - eexists. split; [go|]. eapply reads_poly; [look|look|].
      apply Forall2_app; [now apply vecs_other|]. constructor; [look|constructor].
  Qed.

  (** ConvexHull(list) keeps the caller's list: points appended to it later are
      input points, add_point appends to it, clear() empties it.  input_points()
      is a new list. *)
  Theorem C109_hull_keeps_the_list h l xs q :
    nth_error h l = Some (OList xs) ->
    exists c h1, obj_hull_new l h = Ok (c, h1) /\
      (exists k h2, obj_hull_input_points c h1 = Ok (k, h2) /\ k <> l /\ nth_error h2 k = Some (OList xs)) /\
      (exists h2, obj_list_append l q h1 = Ok (tt, h2) /\
         exists k h3, obj_hull_input_points c h2 = Ok (k, h3) /\ nth_error h3 k = Some (OList (xs ++ [q]))) /\
      (exists h2, obj_hull_add_point c q h1 = Ok (tt, h2) /\ nth_error h2 l = Some (OList (xs ++ [q]))) /\
      (exists h2, obj_hull_clear c h1 = Ok (tt, h2) /\ nth_error h2 l = Some (OList [])).
  Proof.
    intros El. bounds. do 2 eexists. split; [reflexivity|]. unfold obj_hull_clear, obj_hull_clear_results,
      obj_hull_input_points, obj_hull_add_point.
    assert (G : forall (hh : heap T) c i k e, nth_error hh c = Some (OHull i k e) -> get_hull c hh = Ok ((i, k, e), hh))
      by (intros ? ? ? ? ? E; unfold get_hull, mbind, rd; now rewrite E).
    repeat split.
    - do 2 eexists. split; [eapply mbind_ok; [apply G; look|go]|]. split; [len|look].
    - eexists. split; [go|]. do 2 eexists. split; [eapply mbind_ok; [apply G; look|go]|]. look.
    - eexists. split; [eapply mbind_ok; [apply G; look|go]|]. look.
    - eexists. split.
      + eapply mbind_ok; [eapply mbind_ok; [apply G; look|go]|]. eapply mbind_ok; [apply G; look|go].
      + look.
  Qed.

  (** C108 (exact): nearest_point returns one of the two end point objects of the
      segment, unchanged heap, or a new vector; its value is that of the value
      model. *)
  Lemma nearest_point_cases h s a b p vo vt vp :
    nth_error h s = Some (OSeg a b) -> nth_error h a = Some (OVec vo) -> nth_error h b = Some (OVec vt) ->
    nth_error h p = Some (OVec vp) ->
    match Segment2D_nearest_point (mkSeg vo vt) vp with
    | Raise x => obj_seg_nearest_point s p h = Raise x
    | Ok q => exists r h', obj_seg_nearest_point s p h = Ok (r, h') /\ reads h' r (WVec q) /\
                ((r = a /\ h' = h) \/ (r = b /\ h' = h) \/ (r = length h /\ h' = h ++ [OVec q]))
    end.
  Proof.
    intros E1 E2 E3 E4. unfold Segment2D_nearest_point, obj_seg_nearest_point. cbn [s_origin s_terminal].
    rewrite (mbind_ok _ _ _ _ _ _ (get_seg_ok _ _ _ _ E1) eq_refl).
    do 3 (erewrite mbind_ok; [|go|reflexivity]). cbv zeta.
    destruct (neqb _ _); [do 2 eexists; split; [reflexivity|]; split; [rds|auto]|].
    destruct (nleb _ _); [do 2 eexists; split; [reflexivity|]; split; [rds|auto]|].
    destruct (nleb _ _); [do 2 eexists; split; [reflexivity|]; split; [rds|auto]|].
    destruct (Vector2D_truediv _ _) as [q|x] eqn:Q; cbn [bind].
    - do 2 eexists. split; [go|]. split; [rds|auto].
    - reflexivity.
  Qed.
End Sharing.

(** C108: nearest_point gives away the segment's own end point objects.  If the
    foot of the perpendicular lies outside the open segment, the result is the
    origin (or terminal) object itself and assigning to the result moves the
    segment; only in the open segment the result is a new vector. *)
Theorem C108_nearest_point_shares_R (h : heap R) s a b p (vo vt vp : vec R) :
  nth_error h s = Some (OSeg a b) -> nth_error h a = Some (OVec vo) -> nth_error h b = Some (OVec vt) ->
  nth_error h p = Some (OVec vp) -> a <> b ->
  let t := ((vx vt - vx vo) * (vx vp - vx vo) + (vy vt - vy vo) * (vy vp - vy vo))%R in
  let len2 := ((vx vt - vx vo) * (vx vt - vx vo) + (vy vt - vy vo) * (vy vt - vy vo))%R in
  exists r h1, obj_seg_nearest_point s p h = Ok (r, h1) /\
    forall x y, exists h2, obj_vec_mut (VAssign x y) r h1 = Ok (tt, h2) /\
      ((t <= 0)%R -> r = a /\ reads h2 s (WSeg (mkSeg (mkVec x y (v_valid vo)) vt))) /\
      ((0 < t)%R -> (len2 <= t)%R -> r = b /\ reads h2 s (WSeg (mkSeg vo (mkVec x y (v_valid vt))))) /\
      ((0 < t < len2)%R -> nth_error h r = None /\ reads h2 s (WSeg (mkSeg vo vt))).
Proof.
  intros E1 E2 E3 E4 Hab t len2. bounds.
  assert (Ht : (len2 = 0 -> t = 0)%R).
  { unfold len2, t. clear. intro Z. apply Rplus_sqr_eq_0 in Z as [Z1 Z2]. rewrite Z1, Z2. ring. }
  unfold obj_seg_nearest_point.
  rewrite (mbind_ok _ _ _ _ _ _ (get_seg_ok _ _ _ _ E1) eq_refl).
  do 3 (erewrite mbind_ok; [|go|reflexivity]). cbv zeta.
  change (Vector2D_r2 (Vector2D_sub vt vo)) with len2.
  change (Vector2D_inner_product (Vector2D_sub vt vo) (Vector2D_sub vp vo)) with t.
  rnum. destruct (Req_bool_spec len2 0) as [Z|Z].
  { do 2 eexists. split; [reflexivity|]. intros x y. eexists. split; [go|].
    split; [|split]; intros; try (rewrite Ht in * by auto; lra). split; auto. econstructor; look. }
  destruct (Rle_bool_spec t 0) as [Z1|Z1].
  { do 2 eexists. split; [reflexivity|]. intros x y. eexists. split; [go|].
    split; [|split]; intros; try lra. split; auto. econstructor; look. }
  destruct (Rle_bool_spec len2 t) as [Z2|Z2].
  { do 2 eexists. split; [reflexivity|]. intros x y. eexists. split; [go|].
    split; [|split]; intros; try lra. split; auto. econstructor; look. }
  assert (Q : exists q, Vector2D_truediv (Vector2D_mul (Vector2D_sub vt vo) t) len2 = Ok q).
  { unfold Vector2D_truediv. rnum. rewrite !Rdiv_py_ok by auto. eexists; reflexivity. }
  destruct Q as [q Q].
  do 2 eexists. split; [go|]. intros x y. eexists. split; [go|].
  split; [|split]; intros; try lra. split; [apply nth_error_None; lia|]. econstructor; look.
Qed.

(** ** C110: rectangles combined with themselves or sharing a size *)
Lemma self_combined T (N : Num T) (h : heap T) r t s b v (z : size T) :
  nth_error h r = Some (ORect t s b) -> nth_error h t = Some (OVec v) -> nth_error h s = Some (OSize z) ->
  (exists h', obj_rect_intersected r r h = Ok (tt, h') /\ reads h' r (wrect (self_intersected (mkRect v z true)))) /\
  (exists h', obj_rect_united r r h = Ok (tt, h') /\ reads h' r (wrect (self_united (mkRect v z true)))).
Proof.
  intros E1 E2 E3.
  assert (Hd : NoDup [r; t; s]).
  { repeat constructor; cbn; intuition congruence. }
  assert (Hi : inv h [(r, [r; t; s], WRect v z)]).
  { split; cbn; [|exact Hd]. constructor; [econstructor; eauto|constructor]. }
  assert (K : forall un : bool, exists h',
    (if un then obj_rect_united r r else obj_rect_intersected r r) h = Ok (tt, h') /\
    reads h' r (wrect (if un then self_united (mkRect v z true) else self_intersected (mkRect v z true)))).
  { intro un. edestruct (combine_ok h [(r, [r; t; s], WRect v z)] 0 0 r t s b v z r t s b v z un)
      as (h' & ws' & X1 & X2 & X3); eauto; try reflexivity.
    cbn [Nat.eqb] in X2. exists h'. split.
    - unfold run_stmt, bind in X1. cbn [fst] in X1.
      destruct ((if un then obj_rect_united r r else obj_rect_intersected r r) h) as [[[] k]|]; [|discriminate].
      now injection X1 as -> _.
    - assert (V : vars ws' = [r]).
      { unfold run_stmt, bind in X1. cbn [fst] in X1.
        destruct ((if un then obj_rect_united r r else obj_rect_intersected r r) h) as [[[] k]|]; [|discriminate].
        injection X1 as _ <-. reflexivity. }
      apply inv_reads in X3. rewrite V, <- X2 in X3. cbn in X3. inversion X3; subst. assumption. }
  split; [exact (K false)|exact (K true)].
Qed.

Ltac unrect :=
  unfold self_united, self_intersected, intersect_tail, rect_set_all, wrect, Rect2D_is_valid, Size2D_is_valid,
    Rect2D_right, Rect2D_bottom, Rect2D_left, Rect2D_top, Vector2D_assign, Size2D_assign; rnum;
  cbn [sz_length sz_width vx vy v_valid r_top_left r_size r_is_valid].
Lemma self_int_valid x y ok l w : (0 < l)%R -> (0 < w)%R ->
  wrect (self_intersected (mkRect (mkVec x y ok) (mkSize l w) true)) = WRect (mkVec x y ok) (mkSize l w).
Proof.
  intros Hl Hw. unrect.
  destruct (Rlt_bool_spec 0 l); [|lra]. destruct (Rlt_bool_spec 0 w); [|lra]. cbn [andb negb r_top_left r_size vx vy sz_length sz_width r_is_valid].
  rcases; try lra; cbn [r_top_left r_size vx vy sz_length sz_width v_valid];
  do 2 f_equal; rewrite Rabs_pos_eq; lra.
Qed.
Lemma self_int_invalid x y ok l w : (l <= 0)%R \/ (w <= 0)%R ->
  wrect (self_intersected (mkRect (mkVec x y ok) (mkSize l w) true)) = WRect (mkVec 0%R 0%R ok) (mkSize 0%R 0%R).
Proof.
  intros Hl. unrect.
  assert (E : (Rlt_bool 0 l && Rlt_bool 0 w)%bool = false).
  { destruct (Rlt_bool_spec 0 l); auto. destruct (Rlt_bool_spec 0 w); auto. lra. }
  rewrite E. cbn [negb r_top_left r_size vx vy sz_length sz_width v_valid].
  rewrite !Rabs_R0, !Rplus_0_r. rcases; try lra; cbn [r_top_left r_size vx vy sz_length sz_width v_valid];
  do 2 f_equal; rewrite Rminus_0_r; apply Rabs_R0.
Qed.
Lemma self_united_value x y ok l w :
  exists q, wrect (self_united (mkRect (mkVec x y ok) (mkSize l w) true)) = WRect q (mkSize 0%R 0%R) /\
    ((0 < l)%R -> (0 < w)%R -> q = mkVec x y ok) /\ ((l <= 0)%R \/ (w <= 0)%R -> q = mkVec 0%R 0%R ok).
Proof.
  unrect.
  destruct (Rlt_bool_spec 0 l); cbn [andb]; [destruct (Rlt_bool_spec 0 w)|];
  cbn [negb r_top_left r_size vx vy sz_length sz_width v_valid]; rewrite !Rabs_R0, ?Rplus_0_r;
  (rcases; try lra; cbn [r_top_left r_size vx vy sz_length sz_width v_valid];
   eexists; (split; [do 2 f_equal; rewrite ?Rminus_0_r, ?Rminus_diag_eq by reflexivity; apply Rabs_R0|]);
   split; intros; try lra; reflexivity).
Qed.

(** r.intersected(r) leaves a rectangle with positive sides as it is and turns
    any other into the empty rectangle at the origin. *)
Theorem C110_self_intersected_R (h : heap R) r t s b (v : vec R) (z : size R) :
  nth_error h r = Some (ORect t s b) -> nth_error h t = Some (OVec v) -> nth_error h s = Some (OSize z) ->
  exists h', obj_rect_intersected r r h = Ok (tt, h') /\
    ((0 < sz_length z)%R -> (0 < sz_width z)%R -> reads h' r (WRect v z)) /\
    ((sz_length z <= 0)%R \/ (sz_width z <= 0)%R ->
       reads h' r (WRect (mkVec 0%R 0%R (v_valid v)) (mkSize 0%R 0%R))).
Proof.
  intros E1 E2 E3. destruct (self_combined _ _ _ _ _ _ _ _ _ E1 E2 E3) as [(h' & G & Rd) _].
  exists h'. split; [exact G|]. destruct z as [l w], v as [x y ok]. cbn [sz_length sz_width v_valid]. split; intros.
  - now rewrite self_int_valid in Rd.
  - now rewrite self_int_invalid in Rd.
Qed.
(** r.united(r) destroys the size of every rectangle. *)
Theorem C110_self_united_R (h : heap R) r t s b (v : vec R) (z : size R) :
  nth_error h r = Some (ORect t s b) -> nth_error h t = Some (OVec v) -> nth_error h s = Some (OSize z) ->
  exists h' q, obj_rect_united r r h = Ok (tt, h') /\ reads h' r (WRect q (mkSize 0%R 0%R)) /\
    ((0 < sz_length z)%R -> (0 < sz_width z)%R -> q = v) /\
    ((sz_length z <= 0)%R \/ (sz_width z <= 0)%R -> q = mkVec 0%R 0%R (v_valid v)).
Proof.
  intros E1 E2 E3. destruct (self_combined _ _ _ _ _ _ _ _ _ E1 E2 E3) as [_ (h' & G & Rd)].
  destruct z as [l w], v as [x y ok]. destruct (self_united_value x y ok l w) as (q & Q & Q1 & Q2).
  rewrite Q in Rd. exists h', q. auto.
Qed.

(** Two rectangles that hold one Size2D: a.intersected(b) gives both the size of
    the intersection. *)
Theorem C110_intersected_shared_size T (N : Num T) (h : heap T) r t b o t' b' s v v' (z : size T) :
  nth_error h r = Some (ORect t s b) -> nth_error h o = Some (ORect t' s b') ->
  nth_error h t = Some (OVec v) -> nth_error h t' = Some (OVec v') -> nth_error h s = Some (OSize z) ->
  r <> o -> t <> t' -> Size2D_is_valid z = true ->
  let res := Rect2D_intersected (mkRect v z true) (mkRect v' z true) in
  exists h', obj_rect_intersected r o h = Ok (tt, h') /\
    reads h' r (WRect (r_top_left res) (r_size res)) /\
    reads h' o (WRect v' (r_size res)).
Proof.
  intros E1 F1 E2 F2 E3 Hro Htt Hz res. bounds.
  assert (t <> s) by congruence. assert (r <> t) by congruence. assert (r <> s) by congruence.
  assert (t' <> s) by congruence. assert (o <> t) by congruence. assert (o <> s) by congruence.
  assert (o <> t') by congruence. assert (r <> t') by congruence.
  set (h1 := list_set h o (ORect t' s true)).
  assert (G0 : obj_rect_is_valid o h = Ok (true, h1)) by (unfold h1; rewrite <- Hz; go).
  assert (L1 : length h1 = length h) by apply set_len.
  edestruct (tail_ok h1 r t s b v z o t' s true v' z) as (h' & G & W1 & W2 & W3 & W4);
    try (unfold h1; look); auto.
  exists h'. split; [|split].
  - unfold obj_rect_intersected. rewrite (mbind_ok _ _ _ _ _ _ (get_rect_ok _ _ _ _ _ E1) eq_refl).
    rewrite (mbind_ok _ _ _ _ _ _ G0 eq_refl). cbn [negb]. exact G.
  - unfold res, Rect2D_intersected, Rect2D_is_valid. cbn [r_size]. rewrite Hz. cbn [negb].
    eapply reads_rect; [rewrite W4 by auto; unfold h1; look|exact W1|exact W2].
  - unfold res, Rect2D_intersected, Rect2D_is_valid. cbn [r_size]. rewrite Hz. cbn [negb].
    eapply reads_rect; [rewrite W4 by auto; unfold h1; look|rewrite W4 by auto; unfold h1; look|exact W2].
Qed.

(** ** Concrete cases *)
Section Witness.
  Local Open Scope R_scope.
  Let h0 : heap R := [OVec (V 1 2); OSize (mkSize 3 4); OVec (V 5 6); OSeg 0%nat 2%nat; ORect 0%nat 1%nat true;
                      ORect 2%nat 1%nat true; OList [0; 2]%nat; OPoly 6%nat; OVec (V 7 8)].
  Example C107_size_object_shared_nonvacuous :
    nth_error h0 0%nat = Some (OVec (V 1 2)) /\ nth_error h0 1%nat = Some (OSize (mkSize 3 4)).
  Proof. split; reflexivity. Qed.
  Example C107_two_rects_one_size_nonvacuous :
    nth_error h0 0%nat = Some (OVec (V 1 2)) /\ nth_error h0 2%nat = Some (OVec (V 5 6)) /\
    nth_error h0 1%nat = Some (OSize (mkSize 3 4)).
  Proof. repeat split; reflexivity. Qed.
  Example C107_underscore_accessors_nonvacuous :
    nth_error h0 3%nat = Some (OSeg 0%nat 2%nat) /\ nth_error h0 0%nat = Some (OVec (V 1 2)) /\
    nth_error h0 2%nat = Some (OVec (V 5 6)) /\ 0%nat <> 2%nat.
  Proof. repeat split; try reflexivity. discriminate. Qed.
  Example C108_nearest_point_shares_R_nonvacuous :
    nth_error h0 3%nat = Some (OSeg 0%nat 2%nat) /\ nth_error h0 0%nat = Some (OVec (V 1 2)) /\
    nth_error h0 2%nat = Some (OVec (V 5 6)) /\ nth_error h0 8%nat = Some (OVec (V 7 8)) /\ 0%nat <> 2%nat /\
    0 < (5 - 1) * (7 - 1) + (6 - 2) * (8 - 2) /\
    (5 - 1) * (5 - 1) + (6 - 2) * (6 - 2) <= (5 - 1) * (7 - 1) + (6 - 2) * (8 - 2).
  Proof. repeat split; try reflexivity; try discriminate; lra. Qed.
  Example C109_nonvacuous :
    nth_error h0 7%nat = Some (OPoly 6%nat) /\ nth_error h0 6%nat = Some (OList [0; 2]%nat) /\
    vecs h0 [0; 2]%nat [V 1 2; V 5 6] /\ NoDup [0; 2]%nat /\ nth_error h0 8%nat = Some (OVec (V 7 8)) /\
    ~ In 8%nat [0; 2]%nat.
  Proof.
    repeat split; try reflexivity; repeat constructor; cbn; intuition discriminate.
  Qed.
  Example C110_nonvacuous :
    nth_error h0 4%nat = Some (ORect 0%nat 1%nat true) /\ nth_error h0 5%nat = Some (ORect 2%nat 1%nat true) /\
    nth_error h0 0%nat = Some (OVec (V 1 2)) /\ nth_error h0 2%nat = Some (OVec (V 5 6)) /\
    nth_error h0 1%nat = Some (OSize (mkSize 3 4)) /\ 0 < sz_length (mkSize 3 4) /\ 0 < sz_width (mkSize 3 4) /\
    Size2D_is_valid (mkSize 3 4) = true.
  Proof.
    repeat split; try reflexivity; cbn; try lra.
    unfold Size2D_is_valid. rnum. cbn. case Rlt_bool_spec; case Rlt_bool_spec; intros; try lra; reflexivity.
  Qed.
End Witness.
