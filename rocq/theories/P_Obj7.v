(** * P_Obj7: clipping a polygon keeps the vertices' identity (C191) *)
From Coq Require Import ZArith List Bool Arith Lia Reals Lra.
From Verif Require Import Base Types M_Vector M_Line M_Rect M_Polygon M_Hull M_Heap M_Obj M_Obj3 NumR R_Tac Spec Abs Spec3 P_Obj P_Obj3 P_Obj4 P_Obj6 P_Polygon4.
Import ListNotations.
Local Open Scope py_scope.
Local Open Scope nat_scope.

Section Clipping.
  Context {T : Type} `{Num T}.
  Implicit Types (h : heap T).

  Definition ends_ok h (e : (ref * vec T) * (ref * vec T)) :=
    nth_error h (fst (fst e)) = Some (OVec (snd (fst e))) /\ nth_error h (fst (snd e)) = Some (OVec (snd (snd e))).
  Definition val_edge (e : (ref * vec T) * (ref * vec T)) : vec T * vec T := (snd (fst e), snd (snd e)).
  Definition end_ref (e : (ref * vec T) * (ref * vec T)) : ref := fst (snd e).

  Lemma vecs_fresh h acc (accv : list (vec T)) : vecs h acc accv -> ~ In (length h) acc.
  Proof. intros F I. apply (vecs_lt _ _ _ _ F) in I. lia. Qed.
  Lemma ends_fresh h es : Forall (ends_ok h) es -> ~ In (length h) (map end_ref es).
  Proof.
    intros F I. apply in_map_iff in I as (e & E & I). rewrite Forall_forall in F. destruct (F _ I) as [_ A]. unfold end_ref in E. rewrite E in A. apply nth_lt in A. lia.
  Qed.
  Lemma ends_app h t es : Forall (ends_ok h) es -> Forall (ends_ok (h ++ t)) es.
  Proof. apply Forall_impl. intros e [A B]. split; now apply nth_app_old. Qed.
  Lemma NoDup_swap {A} (a b : list A) c x : NoDup (a ++ x :: b) -> ~ In c a -> ~ In c (x :: b) -> NoDup ((a ++ [c; x]) ++ b).
  Proof.
    intros N1 N2 N3. rewrite <- app_assoc. cbn [app]. apply NoDup_Add with (a := c) (l := a ++ x :: b); [apply Add_app|].
    split; [exact N1|]. intros I. apply in_app_or in I as [I|I]; auto.
  Qed.

  Lemma NoDup_left {A} (a b : list A) : NoDup (a ++ b) -> NoDup a.
  Proof. induction a as [|x a IH]; cbn; intros N; [constructor|]. inversion N; subst. constructor; [|auto]. intros I. apply H2. apply in_or_app. now left. Qed.

  Lemma clip_loop_ok region l es : forall h acc accv, Forall (ends_ok h) es -> vecs h acc accv ->
    match clip_loop region l (map val_edge es) accv with
    | Raise x => obj_clip_loop region l es acc h = Raise x
    | Ok ws => exists ys t, obj_clip_loop region l es acc h = Ok (ys, h ++ t) /\ vecs (h ++ t) ys ws /\
        (forall y, In y ys -> In y acc \/ length h <= y \/ exists e, In e es /\ y = end_ref e /\ region (snd (snd e)) = true) /\
        (NoDup (acc ++ map end_ref es) -> NoDup ys)
    end.
  Proof.
    induction es as [|[[r0 p0] [r1 p1]] es IH]; intros h acc accv Fe F; cbn [clip_loop obj_clip_loop map val_edge fst snd].
    { exists acc, []. rewrite app_nil_r. repeat split; auto. now rewrite app_nil_r. }
    inversion Fe as [|? ? [E0 E1] Fe']; subst. cbn [fst snd] in E0, E1.
    assert (Stop : exists ys t, ret acc h = Ok (ys, h ++ t) /\ vecs (h ++ t) ys accv /\
      (forall y, In y ys -> In y acc \/ length h <= y \/ exists e, In e ((r0, p0, (r1, p1)) :: es) /\ y = end_ref e /\ region (snd (snd e)) = true) /\
      (NoDup (acc ++ r1 :: map end_ref es) -> NoDup ys)).
    { exists acc, []. rewrite app_nil_r. repeat split; auto. intros N. now apply NoDup_left in N. }
    assert (Nf := vecs_fresh _ _ _ F). assert (Ef := ends_fresh _ _ Fe').
    assert (N1 : length h <> r1) by (intros Q; rewrite <- Q in E1; apply nth_lt in E1; lia).
    destruct (region p0), (region p1) eqn:R1.
    - specialize (IH h (acc ++ [r1]) (accv ++ [p1]) Fe' ltac:(apply Forall2_app; [exact F|constructor; [exact E1|constructor]])).
      destruct (clip_loop region l (map val_edge es) (accv ++ [p1])) as [ws|x]; [|exact IH].
      destruct IH as (ys & t & A & B & C & D). exists ys, t. split; [exact A|]. split; [exact B|]. split.
      + intros y Hy. destruct (C y Hy) as [I|[I|(e & I1 & I2)]]; [|auto|right; right; exists e; cbn [In]; auto].
        apply in_app_or in I as [I|[<-|[]]]; auto. right; right. eexists. cbn [In]. split; [left; reflexivity|]. cbn. auto.
      + intros N. apply D. rewrite <- app_assoc. exact N.
    - rewrite mbind_lift. destruct (Line2D_intersection _ _) as [cut|]; cbn [bind]; [|reflexivity]. destruct (negb (v_valid cut)); [exact Stop|].
      specialize (IH (h ++ [OVec cut]) (acc ++ [length h]) (accv ++ [cut]) (ends_app _ _ _ Fe')
        ltac:(apply Forall2_app; [now apply vecs_new|constructor; [apply nth_app_new|constructor]])).
      destruct (clip_loop region l (map val_edge es) (accv ++ [cut])) as [ws|x]; [|rewrite (mbind_eq _ _ _ _ _ eq_refl); exact IH].
      destruct IH as (ys & t & A & B & C & D). exists ys, ([OVec cut] ++ t). rewrite app_assoc. split; [rewrite (mbind_eq _ _ _ _ _ eq_refl); exact A|]. split; [exact B|]. split.
      + intros y Hy. destruct (C y Hy) as [I|[I|(e & I1 & I2)]]; [|rewrite app_length in I; right; left; lia|right; right; exists e; cbn [In]; auto].
        apply in_app_or in I as [I|[<-|[]]]; auto.
      + intros N. apply D. rewrite <- app_assoc. cbn [app end_ref fst snd map] in *. apply NoDup_remove_1 in N.
        apply NoDup_Add with (a := length h) (l := acc ++ map end_ref es); [apply Add_app|]. split; [exact N|]. intros I. apply in_app_or in I as [I|I]; auto.
    - rewrite mbind_lift. destruct (Line2D_intersection _ _) as [cut|]; cbn [bind]; [|reflexivity]. destruct (negb (v_valid cut)); [exact Stop|].
      specialize (IH (h ++ [OVec cut]) (acc ++ [length h; r1]) (accv ++ [cut; p1]) (ends_app _ _ _ Fe')
        ltac:(apply Forall2_app; [now apply vecs_new|constructor; [apply nth_app_new|constructor; [now apply nth_app_old|constructor]]])).
      destruct (clip_loop region l (map val_edge es) (accv ++ [cut; p1])) as [ws|x]; [|rewrite (mbind_eq _ _ _ _ _ eq_refl); exact IH].
      destruct IH as (ys & t & A & B & C & D). exists ys, ([OVec cut] ++ t). rewrite app_assoc. split; [rewrite (mbind_eq _ _ _ _ _ eq_refl); exact A|]. split; [exact B|]. split.
      + intros y Hy. destruct (C y Hy) as [I|[I|(e & I1 & I2)]]; [|rewrite app_length in I; right; left; lia|right; right; exists e; cbn [In]; auto].
        apply in_app_or in I as [I|[<-|[<-|[]]]]; auto. right; right. eexists. cbn [In]. split; [left; reflexivity|]. cbn. auto.
      + intros N. apply D. cbn [end_ref fst snd map] in *. apply NoDup_swap; auto. intros [Q|Q]; auto.
    - specialize (IH h acc accv Fe' F). destruct (clip_loop region l (map val_edge es) accv) as [ws|x]; [|exact IH].
      destruct IH as (ys & t & A & B & C & D). exists ys, t. split; [exact A|]. split; [exact B|]. split.
      + intros y Hy. destruct (C y Hy) as [I|[I|(e & I1 & I2)]]; auto. right; right. exists e. cbn [In]. auto.
      + intros N. apply D. cbn [end_ref fst snd map] in *. now apply NoDup_remove_1 in N.
  Qed.

  Lemma path_map {A B} (f : A -> B) (l : list A) : forall a z, map (fun e => (f (fst e), f (snd e))) (path_pairs a l z) = path_pairs (f a) (map f l) (f z).
  Proof. induction l as [|b l IH]; intros a z; cbn; [reflexivity|]. now rewrite IH. Qed.
  Lemma cyc_map {A B} (f : A -> B) (l : list A) : map (fun e => (f (fst e), f (snd e))) (cyc_pairs l) = cyc_pairs (map f l).
  Proof. destruct l; [reflexivity|]. apply path_map. Qed.
  Lemma path_in {A} (l : list A) : forall a z e, In e (path_pairs a l z) -> In (fst e) (a :: l) /\ In (snd e) (l ++ [z]).
  Proof.
    induction l as [|b l IH]; intros a z e; cbn [path_pairs].
    - intros [<-|[]]. cbn. auto.
    - intros [<-|I]; [cbn; auto|]. destruct (IH _ _ _ I) as [P Q]. cbn. split; auto.
  Qed.
  Lemma path_ends {A} (l : list A) : forall a z, map snd (path_pairs a l z) = l ++ [z].
  Proof. induction l as [|b l IH]; intros a z; cbn; [reflexivity|]. now rewrite IH. Qed.

  (** one clip: the outcome is that of the value level, each vertex is one of
      the old ones and inside, or new *)
  Lemma clip_line_ok region l h xs vs : vecs h xs vs ->
    match get_line_clipped_polygon region vs l with
    | Raise x => obj_clip_line region xs l h = Raise x
    | Ok ws => exists ys t, obj_clip_line region xs l h = Ok (ys, h ++ t) /\ vecs (h ++ t) ys ws /\
        (forall y, In y ys -> length h <= y \/ (In y xs /\ forall v, nth_error h y = Some (OVec v) -> region v = true)) /\
        (NoDup xs -> NoDup ys)
    end.
  Proof.
    intros F. unfold obj_clip_line, get_line_clipped_polygon. rewrite (mbind_eq _ _ _ _ _ (read_all_ok _ _ _ F)).
    set (l0 := combine xs vs). assert (Mv : vs = map snd l0) by (symmetry; eapply combine_snd; exact F). assert (Mx : xs = map fst l0) by (symmetry; eapply combine_fst; exact F).
    assert (P0 : forall p, In p l0 -> nth_error h (fst p) = Some (OVec (snd p))) by (intros p Hp; exact (proj1 (combine_all _ _ _ _ F Hp))).
    assert (Ci : forall e, In e (cyc_pairs l0) -> In (fst e) l0 /\ In (snd e) l0).
    { intros e. destruct l0 as [|a l1]; [intros []|]. intros I. apply path_in in I as [I J]. split; [exact I|]. apply in_app_or in J as [J|[<-|[]]]; cbn; auto. }
    assert (Fe : Forall (ends_ok h) (cyc_pairs l0)).
    { apply Forall_forall. intros e He. destruct (Ci e He). split; auto. }
    pose proof (clip_loop_ok region l (cyc_pairs l0) h [] [] Fe ltac:(constructor)) as Q.
    replace (cyc_pairs vs) with (map val_edge (cyc_pairs l0)) by (rewrite Mv; apply (cyc_map snd)).
    destruct (clip_loop region l (map val_edge (cyc_pairs l0)) []) as [ws|x]; [|exact Q].
    destruct Q as (ys & t & A & B & C & D). exists ys, t. split; [exact A|]. split; [exact B|]. split.
    - intros y Hy. destruct (C y Hy) as [[]|[I|(e & I1 & -> & I2)]]; auto. right. destruct (Ci e I1) as [_ I]. split.
      + rewrite Mx. exact (in_map fst _ _ I).
      + intros v Ev. specialize (P0 _ I). unfold end_ref in Ev. rewrite P0 in Ev. injection Ev as <-. exact I2.
    - intros N. apply D. cbn [app]. rewrite Mx in N. clear - N. destruct l0 as [|a l1]; [constructor|]. cbn [cyc_pairs].
      replace (map end_ref (path_pairs a l1 a)) with (map fst (map snd (path_pairs a l1 a))) by now rewrite map_map. rewrite path_ends, map_app. cbn [map] in *.
      inversion N; subst. apply NoDup_Add with (a := fst a) (l := map fst l1); [|auto]. rewrite <- (app_nil_r (map fst l1)) at 1. apply Add_app.
  Qed.

  (** inside all four sides of the rectangle, as the code tests it *)
  Definition inside_all (rv : rect T) (v : vec T) : Prop :=
    x_less_equal (Rect2D_right rv) v = true /\ y_less_equal (Rect2D_bottom rv) v = true /\
    x_more_equal (Rect2D_left rv) v = true /\ y_more_equal (Rect2D_top rv) v = true.

  (** C191: the polygon [g] that get_rectangle_clipped_polygon returns is new, has
      the vertices [ws] of the value-level model, and nothing that existed before
      is changed.  Each vertex is either one of the polygon's own vertex objects,
      inside the rectangle, or a new object, and none occurs twice.  So moving a
      vertex of the old polygon moves it in the clipped one, and conversely moving
      a new vertex of the clipped one leaves the old polygon alone. *)
  Theorem C191_clip_shares h (p k r : ref) xs vs rt rs rb vt sz :
    nth_error h p = Some (OPoly k) -> nth_error h k = Some (OList xs) -> vecs h xs vs -> NoDup xs -> xs <> [] ->
    nth_error h r = Some (ORect rt rs rb) -> nth_error h rt = Some (OVec vt) -> nth_error h rs = Some (OSize sz) ->
    match Polygon2D_get_rectangle_clipped_polygon vs (mkRect vt sz rb) with
    | Raise x => obj_poly_clip p r h = Raise x
    | Ok ws => exists g h' k' ys,
        obj_poly_clip p r h = Ok (g, h') /\ length h <= g /\ length h <= k' /\
        nth_error h' g = Some (OPoly k') /\ nth_error h' k' = Some (OList ys) /\ vecs h' ys ws /\ reads h' g (WPoly ws) /\
        (forall c, c < length h -> nth_error h' c = nth_error h c) /\
        NoDup ys /\
        (forall y, In y ys -> length h <= y \/ (In y xs /\ forall v, nth_error h y = Some (OVec v) -> inside_all (mkRect vt sz rb) v)) /\
        (forall q w x y, (In q xs \/ In q ys) -> nth_error h' q = Some (OVec w) -> exists h2, obj_vec_mut (VAssign x y) q h' = Ok (tt, h2) /\
           reads h2 g (WPoly (moved q (mkVec x y (v_valid w)) ys ws)) /\
           reads h2 p (WPoly (moved q (mkVec x y (v_valid w)) xs vs)) /\ (~ In q xs -> reads h2 p (WPoly vs)) /\ (~ In q ys -> reads h2 g (WPoly ws)))
    end.
  Proof.
    intros Ep Ek F Nx Ne Er Et Es. unfold Polygon2D_get_rectangle_clipped_polygon, obj_poly_clip. set (rv := mkRect vt sz rb).
    rewrite (mbind_eq _ _ _ _ _ (get_poly_ok _ _ _ Ep)), (mbind_eq _ _ _ _ _ (get_list_ok _ _ _ Ek)).
    destruct xs as [|x0 xs1]; [congruence|]. set (xs := x0 :: xs1) in *. assert (Nv : vs <> []) by (inversion F; discriminate).
    destruct vs as [|v0 vs1]; [congruence|]. set (vs := v0 :: vs1) in *. clear Ne Nv.
    rewrite (mbind_eq _ _ _ _ _ (rect_value_ok _ _ _ _ _ _ _ Er Et Es)). fold rv. rewrite mbind_lift.
    destruct (Line2D_of_angle _ _) as [l1|]; cbn [bind]; [|reflexivity].
    pose proof (clip_line_ok (x_less_equal (Rect2D_right rv)) l1 h xs vs F) as Q1. destruct (get_line_clipped_polygon (x_less_equal (Rect2D_right rv)) vs l1) as [w1|]; cbn [bind]; [|unfold mbind; now rewrite Q1].
    destruct Q1 as (y1 & t1 & A1 & F1 & C1 & D1). rewrite (mbind_eq _ _ _ _ _ A1), mbind_lift. destruct (Line2D_of_angle _ _) as [l2|]; cbn [bind]; [|reflexivity].
    pose proof (clip_line_ok (y_less_equal (Rect2D_bottom rv)) l2 _ _ _ F1) as Q2. destruct (get_line_clipped_polygon (y_less_equal (Rect2D_bottom rv)) w1 l2) as [w2|]; cbn [bind]; [|unfold mbind; now rewrite Q2].
    destruct Q2 as (y2 & t2 & A2 & F2 & C2 & D2). rewrite (mbind_eq _ _ _ _ _ A2), mbind_lift. destruct (Line2D_of_angle _ _) as [l3|]; cbn [bind]; [|reflexivity].
    pose proof (clip_line_ok (x_more_equal (Rect2D_left rv)) l3 _ _ _ F2) as Q3. destruct (get_line_clipped_polygon (x_more_equal (Rect2D_left rv)) w2 l3) as [w3|]; cbn [bind]; [|unfold mbind; now rewrite Q3].
    destruct Q3 as (y3 & t3 & A3 & F3 & C3 & D3). rewrite (mbind_eq _ _ _ _ _ A3), mbind_lift. cbn [bind].
    pose proof (clip_line_ok (y_more_equal (Rect2D_top rv)) l2 _ _ _ F3) as Q4. destruct (get_line_clipped_polygon (y_more_equal (Rect2D_top rv)) w3 l2) as [ws|]; [|unfold mbind; now rewrite Q4].
    destruct Q4 as (ys & t4 & A4 & F4 & C4 & D4). rewrite (mbind_eq _ _ _ _ _ A4).
    set (h4 := (((h ++ t1) ++ t2) ++ t3) ++ t4) in *.
    assert (O4 : forall c o, nth_error h c = Some o -> nth_error h4 c = Some o) by (intros c o E; unfold h4; now repeat apply nth_app_old).
    assert (L4 : length h <= length h4) by (unfold h4; rewrite !app_length; lia).
    set (h' := ((h4 ++ [OList ys]) ++ [OList ys]) ++ [OPoly (S (length h4))]).
    assert (EN : mbind (new (OList ys)) (fun t => obj_poly_new_list t) h4 = Ok (S (S (length h4)), h')).
    { rewrite (mbind_eq _ _ _ _ _ eq_refl). unfold obj_poly_new_list. rewrite (mbind_eq _ _ _ _ _ (get_list_ok _ _ _ (nth_app_new h4 (OList ys)))).
      rewrite (mbind_eq _ _ _ _ _ eq_refl). unfold new, h'. rewrite !app_length. cbn [length]. replace (length h4 + 1) with (S (length h4)) by lia. replace (S (length h4) + 1) with (S (S (length h4))) by lia. reflexivity. }
    assert (O' : forall c o, nth_error h4 c = Some o -> nth_error h' c = Some o) by (intros c o E; unfold h'; do 3 apply nth_app_old; exact E).
    assert (G1 : nth_error h' (S (S (length h4))) = Some (OPoly (S (length h4)))).
    { unfold h'. replace (S (S (length h4))) with (length ((h4 ++ [@OList T ys]) ++ [OList ys])) at 1 by (rewrite !app_length; cbn; lia). apply nth_app_new. }
    assert (G2 : nth_error h' (S (length h4)) = Some (OList ys)).
    { unfold h'. apply nth_app_old. replace (S (length h4)) with (length (h4 ++ [@OList T ys])) by (rewrite !app_length; cbn; lia). apply nth_app_new. }
    assert (F' : vecs h' ys ws) by (eapply F2_mono; [exact O'|exact F4]).
    assert (Fx' : vecs h' xs vs) by (eapply F2_mono; [|exact F]; auto).
    assert (Ep' : nth_error h' p = Some (OPoly k)) by auto. assert (Ek' : nth_error h' k = Some (OList xs)) by auto.
    assert (Fr : forall c, c < length h -> nth_error h' c = nth_error h c).
    { intros c Lc. destruct (nth_error h c) as [o|] eqn:E; [auto|]. apply nth_error_None in E. lia. }
    exists (S (S (length h4))), h', (S (length h4)), ys. split; [exact EN|]. split; [lia|]. split; [lia|]. split; [exact G1|]. split; [exact G2|]. split; [exact F'|].
    split; [econstructor; eassumption|]. split; [exact Fr|]. split; [auto|]. split.
    - intros y Hy. destruct (C4 y Hy) as [I|[I4 P4]]; [left; rewrite !app_length in I; lia|].
      destruct (C3 y I4) as [I|[I3 P3]]; [left; rewrite !app_length in I; lia|]. destruct (C2 y I3) as [I|[I2 P2]]; [left; rewrite !app_length in I; lia|].
      destruct (C1 y I2) as [I|[I1 P1]]; [left; exact I|]. right. split; [exact I1|]. intros v Ev. split; [|split; [|split]]; [apply P1|apply P2|apply P3|apply P4]; now repeat apply nth_app_old.
    - intros q w x y _ Eq. exists (list_set h' q (OVec (mkVec x y (v_valid w)))). assert (Lq : q < length h') by (eapply nth_lt; exact Eq).
      assert (NO : forall c o, nth_error h' c = Some o -> match o with OVec _ => False | _ => True end -> nth_error (list_set h' q (OVec (mkVec x y (v_valid w)))) c = Some o).
      { intros c o Ec K. rewrite nth_set_ne; [exact Ec|]. intros ->. rewrite Eq in Ec. injection Ec as <-. exact K. }
      split; [unfold obj_vec_mut; rewrite (mbind_eq _ _ _ _ _ (get_vec_ok _ _ _ Eq)); reflexivity|]. split; [econstructor; [apply NO; [exact G1|exact Logic.I]|apply NO; [exact G2|exact Logic.I]|now apply vecs_moved]|].
      split; [econstructor; [apply NO; [exact Ep'|exact Logic.I]|apply NO; [exact Ek'|exact Logic.I]|now apply vecs_moved]|].
      split; intros N; (econstructor; [apply NO; [eassumption|exact Logic.I]|apply NO; [eassumption|exact Logic.I]|now apply vecs_other]).
  Qed.

  (** the list with its first element moved to the end *)
  Definition rotated {A} (l : list A) : list A := match l with [] => [] | a :: l' => l' ++ [a] end.
  Lemma clip_loop_all region l es : forall h acc, (forall e, In e es -> region (snd (fst e)) = true /\ region (snd (snd e)) = true) ->
    obj_clip_loop region l es acc h = Ok (acc ++ map end_ref es, h).
  Proof.
    induction es as [|[[r0 p0] [r1 p1]] es IH]; intros h acc A; cbn [obj_clip_loop map]; [now rewrite app_nil_r|].
    destruct (A _ (or_introl eq_refl)) as [A1 A2]. cbn [fst snd] in *. rewrite A1, A2, IH by (intros e He; apply A; now right). now rewrite <- app_assoc.
  Qed.
  Lemma cyc_ends (l0 : list (ref * vec T)) : map end_ref (cyc_pairs l0) = rotated (map fst l0).
  Proof.
    destruct l0 as [|a l1]; [reflexivity|]. cbn [cyc_pairs]. replace (map end_ref (path_pairs a l1 a)) with (map fst (map snd (path_pairs a l1 a))) by now rewrite map_map.
    rewrite path_ends, map_app. reflexivity.
  Qed.
  Lemma clip_line_all region l h xs vs : vecs h xs vs -> (forall v, In v vs -> region v = true) -> obj_clip_line region xs l h = Ok (rotated xs, h).
  Proof.
    intros F A. unfold obj_clip_line. rewrite (mbind_eq _ _ _ _ _ (read_all_ok _ _ _ F)). rewrite clip_loop_all.
    - cbn [app]. rewrite cyc_ends. do 2 f_equal. f_equal. exact (combine_fst _ _ _ F).
    - intros e He. assert (B : forall p, In p (combine xs vs) -> region (snd p) = true) by (intros [a b] Hp; apply in_combine_r in Hp; auto).
      destruct (combine xs vs) as [|a l1]; [destruct He|]. apply path_in in He as [I J]. split; [auto|]. apply in_app_or in J as [J|[<-|[]]]; apply B; cbn; auto.
  Qed.
  Lemma vecs_rotated h xs (vs : list (vec T)) : vecs h xs vs -> vecs h (rotated xs) (rotated vs).
  Proof. intros F. destruct F; [constructor|]. cbn [rotated]. apply Forall2_app; [assumption|]. constructor; [assumption|constructor]. Qed.
  Lemma in_rotated {A} (l : list A) v : In v (rotated l) -> In v l.
  Proof. destruct l; cbn; [tauto|]. intros I. apply in_app_or in I as [I|[<-|[]]]; auto. Qed.

  (** C191: a polygon with no vertex outside the rectangle (as the code tests it)
      is returned as a new polygon with exactly its own vertex objects, beginning
      with the fifth (cyclically). *)
  Theorem C191_inside_keeps_vertices h (p k r : ref) xs vs rt rs rb vt sz g h' :
    nth_error h p = Some (OPoly k) -> nth_error h k = Some (OList xs) -> vecs h xs vs -> xs <> [] ->
    nth_error h r = Some (ORect rt rs rb) -> nth_error h rt = Some (OVec vt) -> nth_error h rs = Some (OSize sz) ->
    (forall v, In v vs -> inside_all (mkRect vt sz rb) v) ->
    obj_poly_clip p r h = Ok (g, h') ->
    exists k', length h <= g /\ length h <= k' /\ nth_error h' g = Some (OPoly k') /\
      nth_error h' k' = Some (OList (rotated (rotated (rotated (rotated xs))))) /\
      forall c, c < length h -> nth_error h' c = nth_error h c.
  Proof.
    intros Ep Ek F Ne Er Et Es A. unfold obj_poly_clip. set (rv := mkRect vt sz rb) in *.
    rewrite (mbind_eq _ _ _ _ _ (get_poly_ok _ _ _ Ep)), (mbind_eq _ _ _ _ _ (get_list_ok _ _ _ Ek)).
    destruct xs as [|x0 xs1]; [congruence|]. set (xs := x0 :: xs1) in *.
    rewrite (mbind_eq _ _ _ _ _ (rect_value_ok _ _ _ _ _ _ _ Er Et Es)). fold rv. rewrite mbind_lift.
    destruct (Line2D_of_angle _ _) as [l1|]; cbn [bind]; [|discriminate].
    rewrite (mbind_eq _ _ _ _ _ (clip_line_all _ l1 h xs vs F (fun v I => proj1 (A v I)))), mbind_lift. destruct (Line2D_of_angle _ _) as [l2|]; cbn [bind]; [|discriminate].
    rewrite (mbind_eq _ _ _ _ _ (clip_line_all _ l2 h _ _ (vecs_rotated _ _ _ F) (fun v I => proj1 (proj2 (A v (in_rotated _ _ I)))))), mbind_lift. destruct (Line2D_of_angle _ _) as [l3|]; cbn [bind]; [|discriminate].
    rewrite (mbind_eq _ _ _ _ _ (clip_line_all _ l3 h _ _ (vecs_rotated _ _ _ (vecs_rotated _ _ _ F)) (fun v I => proj1 (proj2 (proj2 (A v (in_rotated _ _ (in_rotated _ _ I)))))))), mbind_lift. cbn [bind].
    rewrite (mbind_eq _ _ _ _ _ (clip_line_all _ l2 h _ _ (vecs_rotated _ _ _ (vecs_rotated _ _ _ (vecs_rotated _ _ _ F))) (fun v I => proj2 (proj2 (proj2 (A v (in_rotated _ _ (in_rotated _ _ (in_rotated _ _ I))))))))).
    set (ys := rotated (rotated (rotated (rotated xs)))).
    rewrite (mbind_eq _ _ _ _ _ eq_refl). unfold obj_poly_new_list. rewrite (mbind_eq _ _ _ _ _ (get_list_ok _ _ _ (nth_app_new h (OList ys)))), (mbind_eq _ _ _ _ _ eq_refl).
    unfold new. intros [= <- <-]. exists (length (h ++ [@OList T ys])). rewrite !app_length. cbn [length]. split; [lia|]. split; [lia|].
    split; [|split].
    - replace (length h + 1 + 1) with (length ((h ++ [@OList T ys]) ++ [OList ys])) by (rewrite !app_length; cbn; lia). apply nth_app_new.
    - apply nth_app_old. replace (length h + 1) with (length (h ++ [@OList T ys])) by (rewrite !app_length; cbn; lia). apply nth_app_new.
    - intros c L. rewrite <- !app_assoc. apply nth_error_app1. exact L.
  Qed.
End Clipping.

(** the polygon and rectangle of C73_rect_nonvacuous as objects: two vertices inside, one outside *)
Example C191_nonvacuous :
  let vs := [mkVec 1 1 true; mkVec 6 2 true; mkVec 1 3 true]%R in
  let h : heap R := map OVec vs ++ [OList [0; 1; 2]; OPoly 3; OVec (mkVec 0 0 true)%R; OSize (mkSize 4 4)%R; ORect 5 6 true] in
  nth_error h 4 = Some (OPoly 3) /\ nth_error h 3 = Some (OList [0; 1; 2]) /\ vecs h [0; 1; 2] vs /\ NoDup [0; 1; 2] /\
  nth_error h 7 = Some (ORect 5 6 true) /\ nth_error h 5 = Some (OVec (mkVec 0 0 true)%R) /\ nth_error h 6 = Some (OSize (mkSize 4 4)%R) /\
  exists ws, Polygon2D_get_rectangle_clipped_polygon vs (mkRect (mkVec 0 0 true)%R (mkSize 4 4)%R true) = Ok ws.
Proof.
  cbv zeta. split; [reflexivity|]. split; [reflexivity|]. split; [repeat constructor|]. split; [repeat constructor; cbn; intuition lia|].
  split; [reflexivity|]. split; [reflexivity|]. split; [reflexivity|].
  destruct C73_rect_nonvacuous as (A & B & C & D & E). destruct (C73_rect_R _ _ A B C D E ltac:(discriminate)) as (ws & W & _). exists ws. exact W.
Qed.
(** a triangle inside a rectangle *)
Example C191_inside_nonvacuous :
  forall v, In v [mkVec 1 1 true; mkVec 2 1 true; mkVec 1 2 true]%R -> inside_all (mkRect (mkVec 0 0 true)%R (mkSize 4 4)%R true) v.
Proof.
  intros v [<-|[<-|[<-|[]]]]; unfold inside_all, x_less_equal, y_less_equal, x_more_equal, y_more_equal; cbn;
    repeat split; apply Flocq.Core.Raux.Rle_bool_true; lra.
Qed.
