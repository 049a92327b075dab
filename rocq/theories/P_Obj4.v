(** * P_Obj4: ConvexHull.compute on objects: the vertices are the caller's
    points, the edges are copies (C122) *)
From Coq Require Import ZArith List Bool Arith Lia Reals Lra.
From Verif Require Import Base Types M_Angle M_Vector M_Line M_Ray M_Triangle
  M_Segment M_Circle M_Sector M_Rect M_Polygon M_Hull M_Heap M_Obj NumR R_Tac Spec Abs Spec3 P_Obj P_Obj2 P_Obj3.
Import ListNotations.
Local Open Scope py_scope.
Local Open Scope nat_scope.

Section HullObjects.
  Context {T : Type} `{Num T}.
  Implicit Types (h : heap T) (v w : vec T).

  Lemma F2_length {A B} (P : A -> B -> Prop) l m : Forall2 P l m -> length l = length m.
  Proof. induction 1; cbn; congruence. Qed.
  Lemma py_get_F2 {A B} (P : A -> B -> Prop) xs vs i (b0 : B) : Forall2 P xs vs -> py_get vs i = Ok b0 -> exists x, py_get xs i = Ok x /\ P x b0 /\ In x xs.
  Proof.
    intros F. unfold py_get, py_index. rewrite (F2_length _ _ _ F).
    destruct ((0 <=? _) && _)%Z; [|discriminate]. destruct (nth_error vs _) eqn:E; [|discriminate]. intros [= ->].
    generalize dependent (Z.to_nat (if (i <? 0)%Z then (i + Z.of_nat (length vs))%Z else i)). intros k E.
    revert k E. induction F as [|a b l m Pab F IH]; intros [|k] E; cbn in E; try discriminate.
    - injection E as ->. exists a. cbn. auto.
    - destruct (IH _ E) as (x & Ex & Px & Ix). exists x. cbn. auto.
  Qed.
  Lemma mapM_app {A B} (f : A -> res B) l m : mapM f (l ++ m) = bind (mapM f l) (fun x => bind (mapM f m) (fun y => Ok (x ++ y))).
  Proof.
    induction l as [|a l IH]; cbn [mapM app bind]; [destruct (mapM f m); reflexivity|].
    destruct (f a); [|reflexivity]. cbn [bind]. rewrite IH. destruct (mapM f l); [|reflexivity]. cbn [bind]. destruct (mapM f m); reflexivity.
  Qed.
  Lemma mapM_F2 h xs vs idx ws : vecs h xs vs -> mapM (fun k => py_get vs (Z.of_nat k)) idx = Ok ws ->
    exists rs, mapM (fun k => py_get xs (Z.of_nat k)) idx = Ok rs /\ vecs h rs ws /\ forall r, In r rs -> In r xs.
  Proof.
    intros F. revert ws. induction idx as [|k idx IH]; intros ws; cbn [mapM].
    - intros [= <-]. exists []. split; [reflexivity|]. split; [constructor|easy].
    - destruct (py_get vs (Z.of_nat k)) as [w|] eqn:E; [|discriminate]. cbn [bind].
      destruct (mapM _ idx) as [ws'|] eqn:E2; [|discriminate]. cbn [bind]. intros [= <-].
      destruct (py_get_F2 (A := ref) _ _ _ _ _ F E) as (x & Ex & Px & Ix). destruct (IH _ eq_refl) as (rs & Er & Fr & Ir).
      exists (x :: rs). rewrite Ex. cbn [bind]. rewrite Er. cbn [bind]. split; [reflexivity|]. split; [now constructor|].
      intros r [<-|Hr]; auto.
  Qed.

  (** the loop that keeps indices visits the same points *)
  Lemma wrap_index fuel : forall pts mi cur used out verts, mapM (fun k => py_get pts (Z.of_nat k)) out = Ok verts ->
    wrap_loop (T := T) fuel pts mi cur used verts =
    bind (wrap_index_loop fuel pts mi cur used out) (fun idx => mapM (fun k => py_get pts (Z.of_nat k)) idx).
  Proof.
    induction fuel as [|fuel IH]; intros pts mi cur used out verts E; cbn [wrap_loop wrap_index_loop]; [now rewrite <- E|].
    destruct (py_get pts (Z.of_nat cur)); [|reflexivity]. cbn [bind].
    destruct (wrap_scan _ _ _ _ _ _) as [c|]; [|reflexivity]. cbn [bind].
    destruct (py_get pts (Z.of_nat c)) as [p|] eqn:Ep; [|reflexivity]. cbn [bind].
    assert (E' : mapM (fun k => py_get pts (Z.of_nat k)) (out ++ [c]) = Ok (verts ++ [p])).
    { rewrite mapM_app, E. cbn [mapM bind]. rewrite Ep. reflexivity. }
    destruct (c =? mi).
    - cbn [bind]. now rewrite E'.
    - now apply IH.
  Qed.
  Lemma wrap_index_nonempty fuel : forall (pts : list (vec T)) mi cur used out idx, out <> [] -> wrap_index_loop fuel pts mi cur used out = Ok idx -> idx <> [].
  Proof.
    induction fuel as [|fuel IH]; intros pts mi cur used out idx N; cbn [wrap_index_loop]; [now intros [= <-]|].
    destruct (py_get _ _); [|discriminate]. cbn [bind]. destruct (wrap_scan _ _ _ _ _ _) as [c|]; [|discriminate]. cbn [bind].
    destruct (py_get _ _); [|discriminate]. cbn [bind]. destruct (c =? mi).
    - intros [= <-] Q. now apply app_eq_nil in Q.
    - apply IH. intros Q. now apply app_eq_nil in Q.
  Qed.

  (** the edge list as a recursion over the vertices *)
  Fixpoint edges_from (lst : vec T) (ws : list (vec T)) : res (list (seg T)) :=
    match ws with
    | [] => Ok []
    | a :: ws' =>
        if Vector2D_eq a lst then edges_from lst ws'
        else match ws' with
             | [] => Raise IndexError
             | b :: _ => bind (edges_from lst ws') (fun es => Ok (Segment2D_of_points a b :: es))
             end
    end.
  Lemma py_get_mid {A} (pre : list A) a rest : py_get (pre ++ a :: rest) (Z.of_nat (length pre)) = Ok a.
  Proof.
    unfold py_get, py_index. rewrite app_length. cbn [length].
    destruct (Z.ltb_spec (Z.of_nat (length pre)) 0); [lia|].
    destruct (Z.leb_spec 0 (Z.of_nat (length pre))); [|lia]. destruct (Z.ltb_spec (Z.of_nat (length pre)) (Z.of_nat (length pre + S (length rest)))); [|lia]. cbn [andb].
    rewrite Nat2Z.id, nth_error_app2, Nat.sub_diag by lia. reflexivity.
  Qed.
  Lemma py_get_end {A} (l : list A) : py_get l (Z.of_nat (length l)) = Raise IndexError.
  Proof.
    unfold py_get, py_index. destruct (Z.ltb_spec (Z.of_nat (length l)) 0); [lia|].
    destruct (Z.ltb_spec (Z.of_nat (length l)) (Z.of_nat (length l))); [lia|]. now rewrite andb_false_r.
  Qed.
  Lemma edges_loop lst verts rest : forall pre es, verts = pre ++ rest ->
    fold_left (fun acc i =>
             bind acc (fun es =>
             bind (py_get verts (Z.of_nat i)) (fun v =>
             if negb (Vector2D_eq v lst) then
               bind (py_get verts (Z.of_nat (S i))) (fun w =>
               Ok (es ++ [Segment2D_of_points v w]))
             else Ok es))) (seq (length pre) (length rest)) (Ok es) =
    bind (edges_from lst rest) (fun es' => Ok (es ++ es')).
  Proof.
    induction rest as [|a rest IH]; intros pre es E; cbn [length seq fold_left edges_from bind]; [now rewrite app_nil_r|].
    assert (E2 : verts = (pre ++ [a]) ++ rest) by (rewrite E, <- app_assoc; reflexivity).
    assert (L : length (pre ++ [a]) = S (length pre)) by (rewrite app_length; cbn; lia).
    assert (G1 : py_get verts (Z.of_nat (length pre)) = Ok a) by (rewrite E; apply py_get_mid).
    rewrite G1. cbn [bind].
    destruct (Vector2D_eq a lst) eqn:Ea; cbn [negb].
    - rewrite <- L. now apply IH.
    - destruct rest as [|b rest'].
      + rewrite app_nil_r in E2. rewrite <- L, <- E2, py_get_end. reflexivity.
      + assert (G2 : py_get verts (Z.of_nat (S (length pre))) = Ok b) by (rewrite E2, <- L; apply py_get_mid).
        rewrite G2. cbn [bind]. rewrite <- L, (IH _ _ E2). destruct (edges_from lst (b :: rest')); [|reflexivity]. cbn [bind]. now rewrite <- app_assoc.
  Qed.
  Lemma build_edges_from (ws : list (vec T)) a : ws <> [] -> build_edges ws = edges_from (last ws a) ws.
  Proof.
    intros N. unfold build_edges. destruct (exists_last N) as (l & z & ->). rewrite rev_app_distr. cbn [rev app].
    rewrite last_last. etransitivity; [apply (edges_loop z (l ++ [z]) (l ++ [z]) [] [] eq_refl)|]. destruct (edges_from _ _); reflexivity.
  Qed.

  Lemma mbind_eq {A B} (m : heap T -> res (A * heap T)) (f : A -> heap T -> res (B * heap T)) h a h' : m h = Ok (a, h') -> mbind m f h = f a h'.
  Proof. intros E. unfold mbind. now rewrite E. Qed.
  Lemma get_hull_ok h c i k e : nth_error h c = Some (OHull i k e) -> get_hull c h = Ok ((i, k, e), h).
  Proof. intros E. unfold get_hull, mbind, rd. now rewrite E. Qed.
  Lemma read_all_ok h xs vs : vecs h xs vs -> read_all xs h = Ok (vs, h).
  Proof.
    induction 1 as [|x v xs vs E F IH]; [reflexivity|]. cbn [read_all]. eapply mbind_ok; [apply get_vec_ok; exact E|]. eapply mbind_ok; [exact IH|]. reflexivity.
  Qed.
  Definition segs h (ss : list ref) (es : list (seg T)) := Forall2 (fun s e => reads h s (WSeg e)) ss es.
  (** an edge object, its two end point objects created after the heap had [n] cells *)
  Definition fresh_seg n h (s : ref) (e : seg T) := exists a b,
    nth_error h s = Some (OSeg a b) /\ nth_error h a = Some (OVec (s_origin e)) /\ nth_error h b = Some (OVec (s_terminal e)) /\
    n <= s /\ n <= a /\ n <= b.
  Lemma fresh_seg_mono n n' h t s e : n' <= n -> fresh_seg n h s e -> fresh_seg n' (h ++ t) s e.
  Proof.
    intros L (a & b & A & B & C & D). exists a, b. repeat split; try lia; now apply nth_app_old.
  Qed.
  Lemma F2_imp {A B} (P Q : A -> B -> Prop) l m : (forall x y, P x y -> Q x y) -> Forall2 P l m -> Forall2 Q l m.
  Proof. intros I. induction 1; constructor; auto. Qed.
  Lemma edges_ok lst rs ws : forall h, vecs h rs ws ->
    match edges_from lst ws with
    | Raise x => obj_edges_from lst rs h = Raise x
    | Ok es => exists ss t, obj_edges_from lst rs h = Ok (ss, h ++ t) /\ Forall2 (fresh_seg (length h) (h ++ t)) ss es
    end.
  Proof.
    intros h F. revert h F. revert ws. induction rs as [|a rs IH]; intros ws h F; inversion F as [|? va ? ws' Ea F']; subst; cbn [edges_from obj_edges_from].
    { exists [], []. rewrite app_nil_r. split; [reflexivity|constructor]. }
    rewrite !(mbind_eq _ _ _ _ _ (get_vec_ok _ _ _ Ea)).
    destruct (Vector2D_eq va lst).
    - apply IH. exact F'.
    - destruct rs as [|b rs]; inversion F' as [|? vb ? ws'' Eb F'']; subst; [reflexivity|].
      set (h1 := ((h ++ [OVec (Vector2D_of_vec va)]) ++ [OVec (Vector2D_of_vec vb)]) ++ [OSeg (length h) (S (length h))]).
      assert (S1 : obj_seg_new a b h = Ok (S (S (length h)), h1)).
      { unfold obj_seg_new. eapply mbind_ok; [apply vec_copy_ok; exact Ea|]. eapply mbind_ok; [apply vec_copy_ok; apply nth_app_old; exact Eb|].
        unfold new, h1. rewrite !app_length. cbn [length]. do 2 f_equal; [lia|]. do 3 f_equal. lia. }
      assert (F1 : vecs h1 (b :: rs) (vb :: ws'')).
      { unfold h1. repeat apply vecs_new. exact F'. }
      specialize (IH _ _ F1). destruct (edges_from lst (vb :: ws'')) as [es|x]; cbn [bind].
      + destruct IH as (ss & t & Es & Fs).
        assert (L1 : length h1 = S (S (S (length h)))) by (unfold h1; rewrite !app_length; cbn; lia).
        exists (S (S (length h)) :: ss), ([OVec (Vector2D_of_vec va); OVec (Vector2D_of_vec vb); OSeg (length h) (S (length h))] ++ t).
        assert (Eh : h ++ [OVec (Vector2D_of_vec va); OVec (Vector2D_of_vec vb); OSeg (length h) (S (length h))] ++ t = h1 ++ t).
        { unfold h1. rewrite <- !app_assoc. reflexivity. }
        rewrite Eh. split.
        * eapply mbind_ok; [exact S1|]. eapply mbind_ok; [exact Es|]. reflexivity.
        * constructor.
          -- exists (length h), (S (length h)). cbn [Segment2D_of_points s_origin s_terminal].
             repeat split; try lia; apply nth_app_old; unfold h1.
             ++ rewrite nth_error_app2; rewrite !app_length; cbn [length]; [|lia]. replace (S (S (length h)) - _) with 0 by lia. reflexivity.
             ++ do 2 apply nth_app_old. apply nth_app_new.
             ++ apply nth_app_old. rewrite nth_error_app2; rewrite !app_length; cbn [length]; [|lia]. replace (S (length h) - _) with 0 by lia. reflexivity.
          -- apply (F2_imp (fresh_seg (length h1) (h1 ++ t))); [|exact Fs]. intros s e Q. rewrite <- (app_nil_r (h1 ++ t)). apply (fresh_seg_mono (length h1)); [lia|exact Q].
      + unfold mbind. rewrite S1. rewrite IH. reflexivity.
  Qed.

  (** the list of values of the cells [ps], after the object [q] has become [w] *)
  Definition moved (q : ref) w (ps : list ref) (ws : list (vec T)) : list (vec T) :=
    map (fun rw => if fst rw =? q then w else snd rw) (combine ps ws).
  Lemma vecs_moved h ps ws q w : q < length h -> vecs h ps ws -> vecs (list_set h q (OVec w)) ps (moved q w ps ws).
  Proof.
    intros L. unfold vecs, moved. induction 1 as [|p v ps ws E F IH]; cbn [combine map fst snd]; constructor; [|exact IH].
    destruct (Nat.eqb_spec p q) as [->|N]; [now apply nth_set_eq|]. rewrite nth_set_ne; auto.
  Qed.
  Lemma segs_other h n q o ss es : q < n -> Forall2 (fresh_seg n h) ss es -> segs (list_set h q o) ss es.
  Proof.
    intros L. apply F2_imp. intros s [so st] (a & b & A & B & C & D1 & D2 & D3). cbn in *.
    eapply (@reads_seg T) with (a := a) (b := b); rewrite nth_set_ne by lia; eassumption.
  Qed.
  Lemma fresh_segs h n ss es : Forall2 (fresh_seg n h) ss es -> segs h ss es.
  Proof. apply F2_imp. intros s [so st] (a & b & A & B & C & _). econstructor; eassumption. Qed.
  Lemma fresh_other n h r o s e : r < n -> fresh_seg n h s e -> fresh_seg n (list_set h r o) s e.
  Proof. intros L (a & b & A & B & C & D1 & D2 & D3). exists a, b. rewrite !nth_set_ne by lia. auto 10. Qed.

  (** what compute() leaves: [hv] is the result of the value-level model *)
  Definition computed (h h' : heap T) (c l v e : ref) (xs : list ref) (vs : list (vec T)) (hv : hull T) : Prop :=
    exists ps ss,
      (* the hull object, the caller's list and its points are as before *)
      nth_error h' c = Some (OHull l v e) /\ nth_error h' l = Some (OList xs) /\ vecs h' xs vs /\
      (* the vertex list holds the caller's own points *)
      nth_error h' v = Some (OList ps) /\ (forall p, In p ps -> In p xs) /\ vecs h' ps (hull_vertices hv) /\
      (* the edge list holds segments, with end points of their own *)
      nth_error h' e = Some (OList ss) /\ segs h' ss (h_edges hv) /\
      (* so if the caller moves one of the points, *)
      (forall q x y, In q xs -> exists w h2, nth_error h' q = Some (OVec w) /\ obj_vec_mut (VAssign x y) q h' = Ok (tt, h2) /\
         (* the vertices move with it and the edges do not, *)
         nth_error h2 v = Some (OList ps) /\ vecs h2 ps (moved q (mkVec x y (v_valid w)) ps (hull_vertices hv)) /\
         nth_error h2 e = Some (OList ss) /\ segs h2 ss (h_edges hv)) /\
      (* and so does a polygon made before by to_polygon *)
      (exists g h2, obj_hull_to_polygon c h' = Ok (g, h2) /\ reads h2 g (WPoly (hull_vertices hv)) /\
         forall q x y, In q xs -> exists w h3, nth_error h2 q = Some (OVec w) /\ obj_vec_mut (VAssign x y) q h2 = Ok (tt, h3) /\
           reads h3 g (WPoly (moved q (mkVec x y (v_valid w)) ps (hull_vertices hv)))) /\
      (* nothing else changes *)
      forall r, r < length h -> r <> v -> r <> e -> nth_error h' r = nth_error h r.

  Lemma computed_intro h h' (c l v e : ref) xs vs hv ps ss :
    nth_error h' c = Some (OHull l v e) -> nth_error h' l = Some (OList xs) -> vecs h' xs vs ->
    nth_error h' v = Some (OList ps) -> (forall p, In p ps -> In p xs) -> vecs h' ps (hull_vertices hv) ->
    nth_error h' e = Some (OList ss) -> Forall2 (fresh_seg (length h) h') ss (h_edges hv) ->
    (forall q, In q xs -> q < length h) ->
    (forall r, r < length h -> r <> v -> r <> e -> nth_error h' r = nth_error h r) ->
    computed h h' c l v e xs vs hv.
  Proof.
    intros Ec El Fx Ev Ip Fp Ee Fs Lx Fr. exists ps, ss. repeat (split; [eassumption|]). split; [eapply fresh_segs; exact Fs|].
    split; [|split; [|exact Fr]].
    - intros q x y Hq. destruct (vecs_in _ _ _ _ Fx Hq) as (w & Ew). exists w, (list_set h' q (OVec (mkVec x y (v_valid w)))).
      split; [exact Ew|]. split; [go|]. assert (Lq : q < length h') by (eapply nth_lt; exact Ew).
      split; [rewrite nth_set_ne; [exact Ev|intros ->; congruence]|]. split; [now apply vecs_moved|].
      split; [rewrite nth_set_ne; [exact Ee|intros ->; congruence]|]. apply (segs_other _ (length h)); [now apply Lx|exact Fs].
    - set (h2 := (h' ++ [OList ps]) ++ [OPoly (length h')]). exists (S (length h')), h2. split.
      + unfold obj_hull_to_polygon. eapply mbind_ok; [apply get_hull_ok; exact Ec|]. cbn beta iota. unfold obj_poly_new_list.
        eapply mbind_ok; [apply get_list_ok; exact Ev|]. eapply mbind_ok; [reflexivity|]. unfold new, h2. rewrite app_length. cbn [length]. do 2 f_equal. lia.
      + assert (G1 : nth_error h2 (S (length h')) = Some (OPoly (length h'))).
        { unfold h2. rewrite nth_error_app2; rewrite !app_length; cbn [length]; [|lia]. replace (S (length h') - _) with 0 by lia. reflexivity. }
        assert (G2 : nth_error h2 (length h') = Some (OList ps)) by (unfold h2; apply nth_app_old, nth_app_new).
        assert (F2 : vecs h2 ps (hull_vertices hv)) by (unfold h2; now repeat apply vecs_new).
        split; [econstructor; eassumption|]. intros q x y Hq. destruct (vecs_in _ _ _ _ Fx Hq) as (w & Ew).
        assert (Ew2 : nth_error h2 q = Some (OVec w)) by (unfold h2; now repeat apply nth_app_old).
        exists w, (list_set h2 q (OVec (mkVec x y (v_valid w)))). split; [exact Ew2|]. split; [go|].
        econstructor; [rewrite nth_set_ne; [exact G1|intros ->; congruence]|rewrite nth_set_ne; [exact G2|intros ->; congruence]|].
        apply vecs_moved; [eapply nth_lt; exact Ew2|exact F2].
  Qed.

  (** C122: compute() on a hull that was given a list of points *)
  Theorem C122_hull_shares_points h (c l v e : ref) xs vs ps0 ss0 :
    nth_error h c = Some (OHull l v e) -> nth_error h l = Some (OList xs) ->
    nth_error h v = Some (OList ps0) -> nth_error h e = Some (OList ss0) -> l <> v -> l <> e -> v <> e ->
    vecs h xs vs ->
    match compute_wrapping_method (ConvexHull_init vs) with
    | Raise x => obj_hull_compute_wrapping c h = Raise x
    | Ok hv => exists h', obj_hull_compute_wrapping c h = Ok (tt, h') /\ computed h h' c l v e xs vs hv
    end.
  Proof.
    intros Ec El Ev Ee N1 N2 N3 F. unfold compute_wrapping_method, obj_hull_compute_wrapping. cbn [clear_results ConvexHull_init h_alias h_input].
    set (h1 := list_set (list_set h v (OList [])) e (OList [])).
    assert (Lx : forall q, In q xs -> q < length h) by (intros q Hq; eapply vecs_lt; eassumption).
    assert (Nx : forall q, In q xs -> q <> v /\ q <> e /\ q <> l /\ q <> c).
    { intros q Hq. destruct (vecs_in _ _ _ _ F Hq) as (w & Ew). repeat split; intros ->; congruence. }
    assert (Nc : c <> v /\ c <> e /\ c <> l) by (repeat split; intros ->; congruence). destruct Nc as (Nc1 & Nc2 & Nc3).
    assert (C1 : obj_hull_clear_results c h = Ok (tt, h1)).
    { unfold obj_hull_clear_results. eapply mbind_ok; [apply get_hull_ok; exact Ec|]. reflexivity. }
    assert (L1 : length h1 = length h) by (unfold h1; now rewrite !set_len).
    assert (Ec1 : nth_error h1 c = Some (OHull l v e)) by (unfold h1; rewrite !nth_set_ne by auto; exact Ec).
    assert (El1 : nth_error h1 l = Some (OList xs)) by (unfold h1; rewrite !nth_set_ne by auto; exact El).
    assert (Ev1 : nth_error h1 v = Some (OList [])) by (unfold h1; rewrite nth_set_ne by auto; apply nth_set_eq; eapply nth_lt; exact Ev).
    assert (Ee1 : nth_error h1 e = Some (OList [])) by (unfold h1; apply nth_set_eq; rewrite set_len; eapply nth_lt; exact Ee).
    assert (F1 : vecs h1 xs vs).
    { unfold h1. apply vecs_other; [apply vecs_other; [exact F|]|]; intros Q; destruct (Nx _ Q) as (? & ? & _); congruence. }
    assert (Fr1 : forall r, r <> v -> r <> e -> nth_error h1 r = nth_error h r) by (intros r A B; unfold h1; rewrite !nth_set_ne by auto; reflexivity).
    rewrite (mbind_ok _ _ _ _ _ _ C1 eq_refl). rewrite (mbind_ok _ _ _ _ _ _ (get_hull_ok _ _ _ _ _ Ec1) eq_refl). cbn beta iota.
    rewrite (mbind_ok _ _ _ _ _ _ (get_list_ok _ _ _ El1) eq_refl). rewrite (mbind_ok _ _ _ _ _ _ (read_all_ok _ _ _ F1) eq_refl).
    assert (Triv : exists h', @ret T unit tt h1 = Ok (tt, h') /\ computed h h' c l v e xs vs (mkHull vs [] [] false)).
    { exists h1. split; [reflexivity|]. apply (computed_intro _ _ _ _ _ _ _ _ _ [] []); auto; try (constructor; fail). easy. }
    destruct (get_min_point_index vs) as [m|] eqn:Em; [|exact Triv].
    destruct (length vs <? 3) eqn:E3; [exact Triv|].
    destruct (py_get vs (Z.of_nat m)) as [p|x] eqn:Ep; cbn [bind].
    - assert (O1 : mapM (fun k => py_get vs (Z.of_nat k)) [m] = Ok [p]) by (cbn [mapM]; rewrite Ep; reflexivity).
      rewrite (wrap_index (S (length vs)) vs m m [] [m] [p] O1).
      destruct (wrap_index_loop (S (length vs)) vs m m [] [m]) as [idx|x] eqn:Ei; cbn [bind]; [|reflexivity].
      rewrite (mbind_ok _ _ h1 _ _ _ (lift_ok _ idx h1 eq_refl) eq_refl).
      destruct (mapM (fun k => py_get vs (Z.of_nat k)) idx) as [ws|x] eqn:Ew; cbn [bind].
      + destruct (mapM_F2 _ _ _ _ _ F1 Ew) as (rs & Er & Fr & Ir).
        assert (Nrs : rs <> []).
        { intros ->. destruct idx as [|k idx']; [refine (wrap_index_nonempty _ _ _ _ _ _ _ _ Ei eq_refl); discriminate|].
          cbn [mapM] in Er. destruct (py_get xs (Z.of_nat k)); [|discriminate]. cbn [bind] in Er. destruct (mapM _ idx'); discriminate. }
        destruct (exists_last Nrs) as (rs' & z & Ers).
        assert (Fz : vecs h1 (rs' ++ [z]) ws) by (rewrite <- Ers; exact Fr).
        apply Forall2_app_inv_l in Fz as (ws' & zs & Fw' & Fzz & Ews). inversion Fzz as [|? vz ? ? Ez Fnil]; subst zs. inversion Fnil; subst. clear Fzz Fnil.
        assert (Nws : ws' ++ [vz] <> []) by (intros Q; now apply app_eq_nil in Q).
        rewrite (build_edges_from _ vz Nws), last_last.
        rewrite (mbind_ok _ _ h1 _ _ _ (lift_ok _ (rs' ++ [z]) h1 Er) eq_refl).
        assert (Gz : py_get (rs' ++ [z]) (-1)%Z = Ok z).
        { unfold py_get, py_index. rewrite app_length. cbn [length]. cbn [Z.ltb Z.compare]. destruct (Z.leb_spec 0 (-1 + Z.of_nat (length rs' + 1))); [|lia].
          destruct (Z.ltb_spec (-1 + Z.of_nat (length rs' + 1)) (Z.of_nat (length rs' + 1))); [|lia]. cbn [andb].
          replace (Z.to_nat (-1 + Z.of_nat (length rs' + 1))) with (length rs') by lia. rewrite nth_error_app2, Nat.sub_diag by lia. reflexivity. }
        rewrite (mbind_ok _ _ h1 _ _ _ (lift_ok _ z h1 Gz) eq_refl). rewrite (mbind_ok _ _ _ _ _ _ (get_vec_ok _ _ _ Ez) eq_refl).
        pose proof (edges_ok vz _ _ _ Fr) as Es. destruct (edges_from vz (ws' ++ [vz])) as [es|x]; cbn [bind].
        * destruct Es as (ss & t & Es & Fs). rewrite (mbind_ok _ _ _ _ _ _ Es eq_refl).
          eexists. split; [reflexivity|].
          assert (Lv : v < length h1) by (eapply nth_lt; exact Ev1). assert (Le : e < length h1) by (eapply nth_lt; exact Ee1).
          rewrite !removelast_last. apply (computed_intro _ _ _ _ _ _ _ _ _ rs' ss); cbn [hull_vertices h_alias h_vertices h_edges].
          -- rewrite !nth_set_ne by auto. now apply nth_app_old.
          -- rewrite !nth_set_ne by auto. now apply nth_app_old.
          -- apply vecs_other; [apply vecs_other|]; try (intros Q; destruct (Nx _ Q) as (? & ? & _); congruence). eapply F2_mono; [|exact F1]. intros. now apply nth_app_old.
          -- rewrite nth_set_ne by auto. apply nth_set_eq. rewrite app_length. lia.
          -- intros q Hq. apply Ir. apply in_or_app. now left.
          -- apply vecs_other; [apply vecs_other|]; try (intros Q; destruct (Nx _ (Ir _ (in_or_app _ _ _ (or_introl Q)))) as (? & ? & _); congruence).
             eapply F2_mono; [|exact Fw']. intros. now apply nth_app_old.
          -- apply nth_set_eq. rewrite set_len, app_length. lia.
          -- eapply F2_imp; [|exact Fs]. intros s sv Q. rewrite L1 in Q, Lv, Le. now repeat apply fresh_other.
          -- exact Lx.
          -- intros r Lr A B. rewrite !nth_set_ne by auto. rewrite nth_error_app1 by lia. now apply Fr1.
        * unfold mbind. rewrite Es. reflexivity.
      + assert (Er : mapM (fun k => py_get xs (Z.of_nat k)) idx = Raise x).
        { clear - F1 Ew. pose proof (F2_length (A := ref) _ _ _ F1) as Ln. revert Ew. induction idx as [|k idx IH]; cbn [mapM]; [discriminate|].
          destruct (py_get vs (Z.of_nat k)) as [w|y] eqn:E; cbn [bind].
          - destruct (py_get_F2 (A := ref) _ _ _ _ _ F1 E) as (r & Er & _). rewrite Er. cbn [bind]. destruct (mapM (fun k0 => py_get vs _) idx) eqn:E2; cbn [bind]; [discriminate|].
            intros [= <-]. rewrite IH; reflexivity.
          - intros [= <-]. assert (Q : py_get xs (Z.of_nat k) = Raise y); [|now rewrite Q].
            revert E. unfold py_get, py_index. rewrite Ln. destruct ((0 <=? _) && _)%Z eqn:B; [|now intros [= <-]].
            apply andb_true_iff in B as (B1 & B2). apply Z.leb_le in B1. apply Z.ltb_lt in B2.
            destruct (nth_error vs _) eqn:E1; [discriminate|]. apply nth_error_None in E1. lia. }
        unfold mbind, lift. rewrite Er. reflexivity.
    - exfalso. assert (B : m < length vs).
      { clear - Em. destruct vs as [|v0 vs']; [discriminate|]. cbn [get_min_point_index] in Em. injection Em as <-.
        assert (G : forall l i mp mi n, mi < n -> i + length l <= n -> min_loop l i mp mi < n).
        { clear. induction l as [|p l IH]; intros i mp mi n A B; cbn [min_loop length] in *; [exact A|]. destruct (_ || _)%bool; apply IH; lia. }
        destruct (_ || _)%bool; apply G; cbn; lia. }
      apply nth_error_Some in B. unfold py_get, py_index in Ep. destruct (Z.ltb_spec (Z.of_nat m) 0); [lia|].
      apply nth_error_Some in B. destruct (Z.leb_spec 0 (Z.of_nat m)); [|lia]. destruct (Z.ltb_spec (Z.of_nat m) (Z.of_nat (length vs))); [|lia]. cbn [andb] in Ep.
      rewrite Nat2Z.id in Ep. destruct (nth_error vs m) eqn:E; [discriminate|]. apply nth_error_None in E. lia.
  Qed.
  (** C122: input_points(), vertices() and edges() return new lists of the same
      objects, input_points_(), vertices_() and edges_() the hull's own lists:
      appending to the former changes no object that existed before, appending to
      the latter is seen by the hull. *)
  Theorem C122_accessors h (c l v e : ref) xs ys zs :
    nth_error h c = Some (OHull l v e) -> nth_error h l = Some (OList xs) -> nth_error h v = Some (OList ys) -> nth_error h e = Some (OList zs) ->
    (forall f us, In (f, us) [(obj_hull_input_points c, xs); (obj_hull_vertices c, ys); (obj_hull_edges c, zs)] ->
       exists k h1, f h = Ok (k, h1) /\ length h <= k /\ nth_error h1 k = Some (OList us) /\
         forall q, exists h2, obj_list_append k q h1 = Ok (tt, h2) /\ nth_error h2 k = Some (OList (us ++ [q])) /\ forall r, r < length h -> nth_error h2 r = nth_error h r) /\
    obj_hull_input_points_ c h = Ok (l, h) /\ obj_hull_vertices_ c h = Ok (v, h) /\ obj_hull_edges_ c h = Ok (e, h) /\
    (forall q, c <> v -> exists h2 k h3, obj_list_append v q h = Ok (tt, h2) /\ obj_hull_vertices c h2 = Ok (k, h3) /\ nth_error h3 k = Some (OList (ys ++ [q]))).
  Proof.
    intros Ec El Ev Ee.
    assert (G : forall (hh : heap T), nth_error hh c = Some (OHull l v e) -> get_hull c hh = Ok ((l, v, e), hh)) by (intros hh E; now apply get_hull_ok).
    split; [|split; [|split; [|split]]].
    - intros f us I. assert (F : f h = Ok (length h, h ++ [OList us])).
      { destruct I as [I|[I|[I|[]]]]; injection I as <- <-; [unfold obj_hull_input_points|unfold obj_hull_vertices|unfold obj_hull_edges];
          rewrite (mbind_ok _ _ _ _ _ _ (G h Ec) eq_refl); cbn beta iota;
          [rewrite (mbind_ok _ _ _ _ _ _ (get_list_ok _ _ _ El) eq_refl)|rewrite (mbind_ok _ _ _ _ _ _ (get_list_ok _ _ _ Ev) eq_refl)|rewrite (mbind_ok _ _ _ _ _ _ (get_list_ok _ _ _ Ee) eq_refl)]; reflexivity. }
      assert (N : nth_error (h ++ [OList us]) (length h) = Some (OList us)) by (rewrite nth_error_app2, Nat.sub_diag by lia; reflexivity).
      exists (length h), (h ++ [OList us]). split; [exact F|]. split; [lia|]. split; [exact N|].
      intros q. exists (list_set (h ++ [OList us]) (length h) (OList (us ++ [q]))). split; [|split].
      + unfold obj_list_append. rewrite (mbind_ok _ _ _ _ _ _ (get_list_ok _ _ _ N) eq_refl). reflexivity.
      + apply nth_set_eq. rewrite app_length. cbn. lia.
      + intros r Hr. rewrite nth_set_ne by lia. now apply nth_error_app1.
    - unfold obj_hull_input_points_. rewrite (mbind_ok _ _ _ _ _ _ (G h Ec) eq_refl). reflexivity.
    - unfold obj_hull_vertices_. rewrite (mbind_ok _ _ _ _ _ _ (G h Ec) eq_refl). reflexivity.
    - unfold obj_hull_edges_. rewrite (mbind_ok _ _ _ _ _ _ (G h Ec) eq_refl). reflexivity.
    - intros q N. set (h2 := list_set h v (OList (ys ++ [q]))).
      assert (E2 : nth_error h2 v = Some (OList (ys ++ [q]))) by (apply nth_set_eq; eapply nth_lt; exact Ev).
      exists h2, (length h2), (h2 ++ [OList (ys ++ [q])]). split; [|split].
      + unfold obj_list_append. rewrite (mbind_ok _ _ _ _ _ _ (get_list_ok _ _ _ Ev) eq_refl). reflexivity.
      + unfold obj_hull_vertices. rewrite (mbind_ok _ _ _ _ _ _ (G h2 ltac:(unfold h2; rewrite nth_set_ne by congruence; exact Ec)) eq_refl). cbn beta iota.
        rewrite (mbind_ok _ _ _ _ _ _ (get_list_ok _ _ _ E2) eq_refl). reflexivity.
      + rewrite nth_error_app2, Nat.sub_diag by lia. reflexivity.
  Qed.
End HullObjects.

(** a square: compute, then move one corner *)
Example C122_nonvacuous :
  let sq := [mkVec 0 0 true; mkVec 1 0 true; mkVec 1 1 true; mkVec 0 1 true]%R in
  let h := map OVec sq ++ [OList [0; 1; 2; 3]; OList []; OList []; OHull 4 5 6] in
  nth_error h 7 = Some (OHull 4 5 6) /\ nth_error h 4 = Some (OList [0; 1; 2; 3]) /\ nth_error h 5 = Some (OList []) /\ nth_error h 6 = Some (OList []) /\
  vecs h [0; 1; 2; 3] sq.
Proof. cbn. repeat split. repeat constructor. Qed.
