(** * P_Obj6: a ConvexHull object and the list it was made from, over any
    history of calls (C190) *)
From Coq Require Import ZArith List Bool Arith Lia Reals Lra Permutation.
From Verif Require Import Base Types M_Vector M_Segment M_Hull M_Heap M_Obj M_Obj2 NumR R_Tac Spec Abs Spec3 P_Obj P_Obj3 P_Obj4 NumF P_Hull2.
Import ListNotations.
Local Open Scope py_scope.
Local Open Scope nat_scope.

Definition rmap {A B} (f : A -> B) (r : res A) : res B := bind r (fun a => Ok (f a)).

(** What is asked of list.sort: it permutes, and it only looks at the elements
    through the comparison. *)
Definition sorts (srt : sort_fn) : Prop :=
  (forall A lt (l l' : list A), srt A lt l = Ok l' -> Permutation l l') /\
  (forall A B (f : A -> B) lt (l : list A),
     srt B lt (map f l) = rmap (map f) (srt A (fun a b => lt (f a) (f b)) l)).

(** CPython's list.sort, for lists of fewer than 64 elements, is such a sort. *)
Section SmallSort.
  Lemma any_insert_map {A B} (f : A -> B) lt fuel : forall l x lo hi,
    any_insert_pos lt fuel (map f l) (f x) lo hi = any_insert_pos (fun a b => lt (f a) (f b)) fuel l x lo hi.
  Proof.
    induction fuel as [|fuel IH]; intros l x lo hi; cbn [any_insert_pos]; [reflexivity|].
    destruct (lo <? hi); [|reflexivity]. rewrite nth_error_map. destruct (nth_error l _) as [y|]; cbn [option_map]; [|reflexivity].
    destruct (lt (f x) (f y)) as [[|]|]; cbn [bind]; auto.
  Qed.
  Lemma any_bin_map {A B} (f : A -> B) lt rest : forall sorted,
    any_bin_sort lt (map f sorted) (map f rest) = rmap (map f) (any_bin_sort (fun a b => lt (f a) (f b)) sorted rest).
  Proof.
    induction rest as [|x rest IH]; intros sorted; cbn [any_bin_sort map]; [reflexivity|].
    rewrite any_insert_map, map_length. destruct (any_insert_pos _ _ _ _ _ _) as [pos|]; cbn [bind]; [|reflexivity].
    rewrite firstn_map, skipn_map, <- IH, map_app. reflexivity.
  Qed.
  Lemma any_run_map {A B} (f : A -> B) lt d l : forall prev,
    any_run_from lt d (f prev) (map f l) = rmap (fun '(a, b) => (map f a, map f b)) (any_run_from (fun a b => lt (f a) (f b)) d prev l).
  Proof.
    induction l as [|x l IH]; intros prev; cbn [any_run_from map]; [reflexivity|].
    destruct (lt (f x) (f prev)) as [b|]; cbn [bind]; [|reflexivity]. destruct (Bool.eqb b d); [|reflexivity].
    rewrite IH. destruct (any_run_from _ _ _ l) as [[u w]|]; reflexivity.
  Qed.
  Lemma any_bin_perm {A} (lt : A -> A -> res bool) rest : forall sorted l', any_bin_sort lt sorted rest = Ok l' -> Permutation (sorted ++ rest) l'.
  Proof.
    induction rest as [|x rest IH]; intros sorted l'; cbn [any_bin_sort]; [intros [= <-]; now rewrite app_nil_r|].
    destruct (any_insert_pos _ _ _ _ _ _) as [pos|]; cbn [bind]; [|discriminate]. intros E. apply IH in E. rewrite <- E.
    rewrite <- (firstn_skipn pos sorted) at 1. rewrite <- !app_assoc. apply Permutation_app_head. cbn [app].
    rewrite <- Permutation_middle. apply perm_skip. reflexivity.
  Qed.
  Lemma any_run_app {A} (lt : A -> A -> res bool) b l : forall prev run rest, any_run_from lt b prev l = Ok (run, rest) -> l = run ++ rest.
  Proof.
    induction l as [|x l IH]; intros prev run rest; cbn [any_run_from]; [intros [= <- <-]; easy|].
    destruct (lt x prev) as [c|]; cbn [bind]; [|discriminate]. destruct (Bool.eqb c b).
    - destruct (any_run_from lt b x l) as [[r1 r2]|] eqn:E; cbn [bind]; [|discriminate]. intros [= <- <-]. cbn. now rewrite <- (IH _ _ _ E).
    - intros [= <- <-]. easy.
  Qed.
  Lemma small_sorts : sorts (@any_sort_small).
  Proof.
    split.
    - intros A lt l l'. destruct l as [|x [|y l]]; cbn [any_sort_small]; [intros [= <-]; constructor|intros [= <-]; reflexivity|].
      destruct (lt y x) as [b|]; cbn [bind]; [|discriminate]. destruct (any_run_from lt b y l) as [[run rest]|] eqn:E1; cbn [bind]; [|discriminate].
      intros E. apply any_run_app in E1. apply any_bin_perm in E. rewrite <- E, E1. destruct b; [|reflexivity]. rewrite <- Permutation_rev. reflexivity.
    - intros A B f lt l. destruct l as [|x [|y l]]; [reflexivity|reflexivity|]. cbn [any_sort_small map].
      destruct (lt (f y) (f x)) as [b|]; cbn [bind]; [|reflexivity]. rewrite any_run_map.
      destruct (any_run_from _ b y l) as [[run rest]|]; cbn [bind rmap]; [|reflexivity]. fold (rmap (map f)).
      rewrite <- any_bin_map. f_equal. destruct b; [|reflexivity]. now rewrite map_rev.
  Qed.
  (** it is the sort of the value-level model *)
  Lemma insert_same {T} `{Num T} (lt : vec T -> vec T -> res bool) fuel : forall l x lo hi, any_insert_pos lt fuel l x lo hi = bin_insert_pos lt fuel l x lo hi.
  Proof.
    induction fuel as [|fuel IH]; intros; cbn [any_insert_pos bin_insert_pos]; [reflexivity|]. destruct (lo <? hi); [|reflexivity].
    destruct (nth_error l _); [|reflexivity]. destruct (lt x v) as [[|]|]; cbn [bind]; auto.
  Qed.
  Lemma bin_same {T} `{Num T} (lt : vec T -> vec T -> res bool) rest : forall sorted, any_bin_sort lt sorted rest = bin_sort lt sorted rest.
  Proof.
    induction rest as [|x rest IH]; intros; cbn [any_bin_sort bin_sort]; [reflexivity|]. rewrite insert_same.
    destruct (bin_insert_pos _ _ _ _ _ _); cbn [bind]; auto.
  Qed.
  Lemma run_same {T} `{Num T} (lt : vec T -> vec T -> res bool) d l : forall prev, any_run_from lt d prev l = run_from lt d prev l.
  Proof.
    induction l as [|x l IH]; intros; cbn [any_run_from run_from]; [reflexivity|]. destruct (lt x prev) as [b|]; cbn [bind]; [|reflexivity].
    destruct (Bool.eqb b d); [|reflexivity]. now rewrite IH.
  Qed.
  Lemma small_same {T} `{Num T} (lt : vec T -> vec T -> res bool) l : any_sort_small lt l = py_sort_small lt l.
  Proof.
    destruct l as [|x [|y l]]; [reflexivity|reflexivity|]. cbn [any_sort_small py_sort_small]. destruct (lt y x) as [b|]; cbn [bind]; [|reflexivity].
    rewrite run_same. destruct (run_from lt b y l) as [[u w]|]; cbn [bind]; [|reflexivity]. apply bin_same.
  Qed.
End SmallSort.

Section Lists.
  Lemma py_get_map {A B} (f : A -> B) l i : py_get (map f l) i = rmap f (py_get l i).
  Proof.
    unfold py_get, py_index. rewrite map_length. destruct (_ && _)%bool; [|reflexivity]. rewrite nth_error_map. destruct (nth_error l _); reflexivity.
  Qed.
  Lemma list_set_map {A B} (f : A -> B) (l : list A) : forall i a, list_set (map f l) i (f a) = map f (list_set l i a).
  Proof. induction l as [|x l IH]; intros [|i] a; cbn; auto. now rewrite IH. Qed.
  Lemma py_set_map {A B} (f : A -> B) l i a : py_set (map f l) i (f a) = rmap (map f) (py_set l i a).
  Proof.
    unfold py_set, py_index. rewrite map_length. destruct (_ && _)%bool; [|reflexivity]. cbn [rmap bind]. now rewrite list_set_map.
  Qed.
  Lemma py_del_map {A B} (f : A -> B) l i : py_del_from (map f l) i = map f (py_del_from l i).
  Proof. unfold py_del_from. now rewrite map_length, firstn_map. Qed.
  Lemma list_set_incl {A} (l : list A) : forall i a, incl (list_set l i a) (a :: l).
  Proof.
    induction l as [|x l IH]; intros [|i] a y; cbn; try tauto. intros [->|Hy]; [auto|]. destruct (IH _ _ _ Hy) as [->|?]; auto.
  Qed.
  Lemma py_get_in {A} (l : list A) i a : py_get l i = Ok a -> In a l.
  Proof.
    unfold py_get. destruct (py_index l i) as [j|]; [|discriminate]. destruct (nth_error l j) eqn:E; [|discriminate]. intros [= <-]. eapply nth_error_In; exact E.
  Qed.
  Lemma py_set_incl {A} (l m l' : list A) i a : py_set l i a = Ok l' -> incl l m -> In a m -> incl l' m.
  Proof.
    unfold py_set. destruct (py_index l i); [|discriminate]. intros [= <-] I J y Hy. apply list_set_incl in Hy as [<-|Hy]; auto.
  Qed.
  Lemma py_set_len {A} (l l' : list A) i a : py_set l i a = Ok l' -> length l' = length l.
  Proof. unfold py_set. destruct (py_index l i); [|discriminate]. intros [= <-]. apply set_len. Qed.
  Lemma firstn_incl {A} n (l : list A) : incl (firstn n l) l.
  Proof. revert n; induction l as [|x l IH]; intros [|n] y; cbn; try tauto. intros [->|Hy]; auto. right. eapply IH; exact Hy. Qed.
  Lemma combine_fst {A B} (P : A -> B -> Prop) l m : Forall2 P l m -> map fst (combine l m) = l.
  Proof. induction 1; cbn; congruence. Qed.
  Lemma combine_snd {A B} (P : A -> B -> Prop) l m : Forall2 P l m -> map snd (combine l m) = m.
  Proof. induction 1; cbn; congruence. Qed.
  Lemma combine_all {A B} (P : A -> B -> Prop) l m p : Forall2 P l m -> In p (combine l m) -> P (fst p) (snd p) /\ In (fst p) l.
  Proof. induction 1; cbn; [tauto|]. intros [<-|Hp]; cbn; [auto|]. destruct (IHForall2 Hp). auto. Qed.
End Lists.

Section Pairs.
  Context {T : Type} `{Num T}.
  Implicit Types (h : heap T).

  Lemma graham_pop_map fuel : forall (l : list (ref * vec T)) p top, graham_pop fuel (map snd l) p top = graham_pop_refs fuel l p top.
  Proof.
    induction fuel as [|fuel IH]; intros l p top; cbn [graham_pop graham_pop_refs]; [reflexivity|].
    rewrite !py_get_map. destruct (py_get l (top - 1)) as [a|]; cbn [rmap bind]; [|reflexivity].
    destruct (py_get l top) as [b|]; cbn [rmap bind]; [|reflexivity]. destruct (hull_is_clockwise _ _ _) as [[|]|]; cbn [bind]; auto.
  Qed.
  Lemma graham_loop_map is : forall (l : list (ref * vec T)) top,
    graham_loop is (map snd l) top = rmap (fun '(l', t) => (map snd l', t)) (graham_loop_refs is l top).
  Proof.
    induction is as [|i is IH]; intros l top; cbn [graham_loop graham_loop_refs]; [reflexivity|].
    rewrite !py_get_map. destruct (py_get l (Z.of_nat i)) as [p|]; cbn [rmap bind]; [|reflexivity].
    rewrite map_length, graham_pop_map. destruct (graham_pop_refs _ _ _ _) as [top1|]; cbn [bind]; [|reflexivity].
    rewrite !py_get_map. destruct (py_get l (top1 + 1)) as [tmp|]; cbn [rmap bind]; [|reflexivity].
    rewrite py_set_map. destruct (py_set l (top1 + 1) p) as [l1|]; cbn [rmap bind]; [|reflexivity].
    rewrite py_set_map. destruct (py_set l1 (Z.of_nat i) tmp) as [l2|]; cbn [rmap bind]; [|reflexivity]. apply IH.
  Qed.
  Lemma graham_loop_incl is : forall (l l' m : list (ref * vec T)) top t, graham_loop_refs is l top = Ok (l', t) -> incl l m -> incl l' m.
  Proof.
    induction is as [|i is IH]; intros l l' m top t; cbn [graham_loop_refs]; [now intros [= <- <-]|].
    destruct (py_get l (Z.of_nat i)) as [p|] eqn:E1; cbn [bind]; [|discriminate]. destruct (graham_pop_refs _ _ _ _) as [top1|]; cbn [bind]; [|discriminate].
    destruct (py_get l (top1 + 1)) as [tmp|] eqn:E2; cbn [bind]; [|discriminate]. destruct (py_set l (top1 + 1) p) as [l1|] eqn:E3; cbn [bind]; [|discriminate].
    destruct (py_set l1 (Z.of_nat i) tmp) as [l2|] eqn:E4; cbn [bind]; [|discriminate]. intros E I. apply py_get_in in E1, E2.
    eapply IH; [exact E|]. eapply py_set_incl; [exact E4| |auto]. eapply py_set_incl; [exact E3|exact I|auto].
  Qed.

  Definition edge_of (pts : list (ref * vec T)) (ab : ref * ref) (s : seg T) : Prop :=
    exists va vb, In (fst ab, va) pts /\ In (snd ab, vb) pts /\ s = Segment2D_of_points va vb.
  Definition same_acc (pts : list (ref * vec T)) (ar : res (list (ref * vec T) * list (ref * ref))) (av : res (list (vec T) * list (seg T))) : Prop :=
    match ar, av with
    | Ok (ps, es), Ok (vs, ss) => vs = map snd ps /\ incl ps pts /\ Forall2 (edge_of pts) es ss
    | Raise x, Raise y => x = y
    | _, _ => False
    end.
  Lemma direct_step_ok pts ar av ij : same_acc pts ar av -> same_acc pts (direct_step_refs pts ar ij) (direct_step (map snd pts) av ij).
  Proof.
    destruct ar as [[ps es]|x], av as [[vs ss]|y]; cbn [same_acc]; try (intros []; fail); [|now intros ->].
    intros (-> & I & F). destruct ij as [i j]. unfold direct_step_refs, direct_step. cbn [bind]. rewrite !py_get_map.
    destruct (py_get pts (Z.of_nat i)) as [[rf pf]|] eqn:E1; cbn [rmap bind]; [|reflexivity].
    destruct (py_get pts (Z.of_nat j)) as [[rs qs]|] eqn:E2; cbn [rmap bind snd fst]; [|reflexivity]. apply py_get_in in E1, E2.
    destruct (direct_scan _ _ _ _ _ _ _) as [[|] lv]; cbn [same_acc]; [|auto].
    split; [|split].
    - now rewrite map_app.
    - intros p Hp. apply in_app_or in Hp as [Hp|[<-|[<-|[]]]]; auto.
    - apply Forall2_app; [exact F|]. constructor; [|constructor]. destruct (lv <? num 0)%num; [exists pf, qs|exists qs, pf]; auto.
  Qed.
  Lemma direct_fold_ok pts ijs : forall ar av, same_acc pts ar av ->
    same_acc pts (fold_left (direct_step_refs pts) ijs ar) (fold_left (direct_step (map snd pts)) ijs av).
  Proof. induction ijs as [|ij ijs IH]; intros ar av S; cbn [fold_left]; [exact S|]. apply IH. now apply direct_step_ok. Qed.

  Lemma list2set_ok h (l : list (ref * vec T)) :
    (forall p, In p l -> nth_error h (fst p) = Some (OVec (snd p)) /\ Vector2D_eq (snd p) (snd p) = true) ->
    map snd (list2set_refs l) = list2set (map snd l) /\ incl (list2set_refs l) l.
  Proof.
    intros P. unfold list2set_refs, list2set.
    assert (G : forall l1 sub, incl l1 l -> incl sub l ->
      map snd (fold_left (fun sub item => if existsb (fun w => Nat.eqb (fst w) (fst item) || Vector2D_eq (snd w) (snd item)) sub then sub else sub ++ [item]) l1 sub) =
      fold_left (fun sub item => if vec_in item sub then sub else sub ++ [item]) (map snd l1) (map snd sub) /\
      incl (fold_left (fun sub item => if existsb (fun w => Nat.eqb (fst w) (fst item) || Vector2D_eq (snd w) (snd item)) sub then sub else sub ++ [item]) l1 sub) l).
    { induction l1 as [|x l1 IH]; intros sub I J; cbn [fold_left map]; [auto|].
      assert (E : existsb (fun w => (fst w =? fst x) || Vector2D_eq (snd w) (snd x))%bool sub = vec_in (snd x) (map snd sub)).
      { clear IH. unfold vec_in. revert J. induction sub as [|w sub IHs]; intros J; cbn [existsb map]; [reflexivity|]. rewrite IHs by (intros y Hy; apply J; now right). f_equal.
        match goal with |- orb ?a _ = _ => destruct a eqn:Q end; [|reflexivity]. cbn [orb]. apply Nat.eqb_eq in Q. destruct (P w (J w (or_introl eq_refl))) as [A1 A2]. destruct (P x (I x (or_introl eq_refl))) as [B1 _].
        assert (A3 : Some (OVec (snd w)) = Some (OVec (snd x))) by (rewrite <- A1, <- B1; f_equal; exact Q). injection A3 as A3. rewrite <- A3. now symmetry. }
      match goal with |- context [existsb ?f sub] => replace (existsb f sub) with (vec_in (snd x) (map snd sub)) by (symmetry; exact E) end.
      destruct (vec_in (snd x) (map snd sub)).
      - apply IH; [intros y Hy; apply I; now right|exact J].
      - replace (map snd sub ++ [snd x]) with (map snd (sub ++ [x])) by now rewrite map_app. apply IH; [intros y Hy; apply I; now right|].
        intros y Hy. apply in_app_or in Hy as [Hy|[<-|[]]]; auto. apply I. now left. }
    apply (G l [] (incl_refl l)). intros ? [].
  Qed.
End Pairs.

Section HullHistory.
  Context {T : Type} `{Num T}.
  Implicit Types (h : heap T) (hv : hull T).

  (** cells of vectors and segments of [h] are still there in [h'] *)
  Definition keeps h h' := forall r o, nth_error h r = Some o ->
    match o with OVec _ | OSeg _ _ => nth_error h' r = Some o | _ => True end.
  Lemma keeps_set h r o o' : nth_error h r = Some o -> match o with OVec _ | OSeg _ _ => False | _ => True end -> keeps h (list_set h r o').
  Proof.
    intros E K q p Eq. destruct (Nat.eq_dec r q) as [<-|N]; [|rewrite nth_set_ne by auto; destruct p; auto]. rewrite E in Eq. injection Eq as <-. destruct o; tauto.
  Qed.
  Lemma keeps_app h t : keeps h (h ++ t).
  Proof. intros q p E. destruct p; auto; now apply nth_app_old. Qed.
  Lemma keeps_trans h1 h2 h3 : keeps h1 h2 -> keeps h2 h3 -> keeps h1 h3.
  Proof. intros A B q p E. specialize (A q p E). destruct p; auto; exact (B _ _ A). Qed.
  Lemma segs_keeps h h' ss es : keeps h h' -> segs h ss es -> segs h' ss es.
  Proof.
    intros K. apply F2_imp. intros s e R. inversion R; subst. econstructor; first [apply (K _ (OSeg _ _)); eassumption | apply (K _ (OVec _)); eassumption].
  Qed.
  Lemma vecs_keeps h h' ps ws : keeps h h' -> vecs h ps ws -> vecs h' ps ws.
  Proof. intros K. apply F2_imp. intros p w E. exact (K _ _ E). Qed.

  (** The hull object [c], made from the caller's list [l], is in the state
      [hv] of the value-level model; the points are objects of the heap [h0] as
      it was when the hull was made, among those listed in [given]:
      - the caller's list is the input list and holds points with the values [h_input hv];
      - the vertex list holds points with the values [hull_vertices hv]; it is
        the caller's list itself if [h_alias hv], else a list made since;
      - the edge list holds segments with the values [h_edges hv];
      - every other object of [h0] is as it was. *)
  Definition linked_at (h0 : heap T) (given : list ref) (l c : ref) h hv (xs : list ref) (v : ref) (ys : list ref) (e : ref) (zs : list ref) : Prop :=
    nth_error h c = Some (OHull l v e) /\
    nth_error h l = Some (OList xs) /\ vecs h0 xs (h_input hv) /\ incl xs given /\
    nth_error h v = Some (OList ys) /\ vecs h0 ys (hull_vertices hv) /\ incl ys given /\
    nth_error h e = Some (OList zs) /\ segs h zs (h_edges hv) /\
    (if h_alias hv then v = l else length h0 <= v) /\ length h0 <= e /\ length h0 <= c /\ v <> e /\
    (forall r, r < length h0 -> r <> l -> nth_error h r = nth_error h0 r).
  Definition linked h0 given l c h hv : Prop := exists xs v ys e zs, linked_at h0 given l c h hv xs v ys e zs.

  Variable srt : sort_fn.
  Hypothesis Srt : sorts srt.
  Variable h0 : heap T.
  Variable l : ref.
  Variable xs0 : list ref.
  Hypothesis Hl : nth_error h0 l = Some (OList xs0).
  Variable given : list ref.
  (** no coordinate is NaN: every point is == to itself *)
  Hypothesis Self : forall q w, nth_error h0 q = Some (OVec w) -> Vector2D_eq w w = true.

  Notation sorter := (srt (vec T) angle_lt).

  Lemma frame_vecs h ps ws : (forall r, r < length h0 -> r <> l -> nth_error h r = nth_error h0 r) -> vecs h0 ps ws -> vecs h ps ws.
  Proof.
    intros Fr. apply F2_imp. intros p w E. rewrite Fr; [exact E|eapply nth_lt; exact E|]. intros ->. congruence.
  Qed.
  Lemma l_lt : l < length h0.
  Proof. eapply nth_lt. exact Hl. Qed.
  Lemma mbind_lift {A B} (r : res A) (k : A -> heap T -> res (B * heap T)) h : mbind (lift r) k h = bind r (fun a => k a h).
  Proof. destruct r; reflexivity. Qed.

  Lemma clear_ok c h hv xs v ys e zs : linked_at h0 given l c h hv xs v ys e zs ->
    exists h1, obj_hull_clear_results c h = Ok (tt, h1) /\ length h1 = length h /\
      linked_at h0 given l c h1 (clear_results hv) (if h_alias hv then [] else xs) v [] e [].
  Proof.
    intros (Ec & El & Fx & Ix & Ev & Fy & Iy & Ee & Fz & Al & Le & Lc & Nve & Fr). pose proof l_lt as Ll.
    exists (list_set (list_set h v (OList [])) e (OList [])). split; [|split].
    - unfold obj_hull_clear_results. eapply mbind_ok; [apply get_hull_ok; exact Ec|]. reflexivity.
    - now rewrite !set_len.
    - assert (Ncv : c <> v) by (intros ->; congruence). assert (Nce : c <> e) by (intros ->; congruence).
      assert (N0 : forall r, r < length h0 -> r <> l -> r <> v) by (intros r A B; destruct (h_alias hv); [congruence|lia]).
      assert (Lv : v < length h) by (eapply nth_lt; exact Ev). assert (Le' : e < length h) by (eapply nth_lt; exact Ee).
      unfold linked_at, clear_results, hull_vertices in *. destruct (h_alias hv) eqn:A; cbn [h_alias h_input h_vertices h_edges] in *.
      + subst v. repeat split; auto; try (constructor; fail); try (intros ? []; fail).
        * rewrite !nth_set_ne by auto. exact Ec.
        * rewrite nth_set_ne by auto. now apply nth_set_eq.
        * rewrite nth_set_ne by auto. now apply nth_set_eq.
        * apply nth_set_eq. now rewrite set_len.
        * intros r B C. rewrite !nth_set_ne by (auto; lia). auto.
      + repeat split; auto; try (constructor; fail); try (intros ? []; fail).
        * rewrite !nth_set_ne by auto. exact Ec.
        * rewrite !nth_set_ne by (lia). exact El.
        * rewrite nth_set_ne by auto. now apply nth_set_eq.
        * apply nth_set_eq. now rewrite set_len.
        * intros r B C. rewrite !nth_set_ne by (auto; lia). auto.
  Qed.

  Lemma seg_new_ok h a b va vb : nth_error h a = Some (OVec va) -> nth_error h b = Some (OVec vb) ->
    exists t, obj_seg_new a b h = Ok (S (S (length h)), h ++ t) /\ length t = 3 /\ reads (h ++ t) (S (S (length h))) (WSeg (Segment2D_of_points va vb)).
  Proof.
    intros Ea Eb. exists [OVec (Vector2D_of_vec va); OVec (Vector2D_of_vec vb); OSeg (length h) (S (length h))].
    split; [|split; [reflexivity|]].
    - unfold obj_seg_new. eapply mbind_ok; [apply vec_copy_ok; exact Ea|]. eapply mbind_ok; [apply vec_copy_ok; apply nth_app_old; exact Eb|].
      unfold new. rewrite !app_length. cbn [length]. rewrite <- !app_assoc. cbn [app]. do 2 f_equal; [lia|]. do 3 f_equal. f_equal. f_equal. lia.
    - assert (G : forall k o, nth_error [OVec (Vector2D_of_vec va); OVec (Vector2D_of_vec vb); OSeg (length h) (S (length h))] k = Some o ->
        nth_error (h ++ [OVec (Vector2D_of_vec va); OVec (Vector2D_of_vec vb); OSeg (length h) (S (length h))]) (k + length h) = Some o).
      { intros k o E. rewrite nth_error_app2 by lia. now replace (k + length h - length h) with k by lia. }
      unfold Segment2D_of_points. eapply (@reads_seg T); [exact (G 2 _ eq_refl)|exact (G 0 _ eq_refl)|exact (G 1 _ eq_refl)].
  Qed.
  Lemma new_segs_ok pts : forall es ss h, (forall p, In p pts -> nth_error h (fst p) = Some (OVec (snd p))) -> Forall2 (edge_of pts) es ss ->
    exists rs t, obj_new_segs es h = Ok (rs, h ++ t) /\ segs (h ++ t) rs ss.
  Proof.
    induction es as [|[a b] es IH]; intros ss h P F; inversion F as [|? s ? ss' E F']; subst; cbn [obj_new_segs].
    - exists [], []. rewrite app_nil_r. split; [reflexivity|constructor].
    - destruct E as (va & vb & Ia & Ib & ->). destruct (seg_new_ok h a b va vb (P _ Ia) (P _ Ib)) as (t & E1 & _ & R1).
      destruct (IH ss' (h ++ t) ltac:(intros p Hp; apply nth_app_old; auto) F') as (rs & t' & E2 & R2).
      exists (S (S (length h)) :: rs), (t ++ t'). rewrite app_assoc. split.
      + eapply mbind_ok; [exact E1|]. eapply mbind_ok; [exact E2|]. reflexivity.
      + constructor; [|exact R2]. assert (R : segs (h ++ t) [S (S (length h))] [Segment2D_of_points va vb]) by (constructor; [exact R1|constructor]).
        apply (segs_keeps _ _ _ _ (keeps_app (h ++ t) t')) in R. now inversion R.
  Qed.
  Lemma build_ok h rs ws : vecs h rs ws ->
    match build_edges ws with
    | Raise x => obj_build_edges rs h = Raise x
    | Ok es => exists ss t, obj_build_edges rs h = Ok (ss, h ++ t) /\ segs (h ++ t) ss es
    end.
  Proof.
    intros F. unfold obj_build_edges. destruct rs as [|r rs].
    - inversion F; subst. exists [], []. rewrite app_nil_r. split; [reflexivity|constructor].
    - assert (N : r :: rs <> []) by discriminate. destruct (exists_last N) as (rs' & z & E). rewrite E in *. clear E N r rs.
      apply Forall2_app_inv_l in F as (ws' & zs & Fw & Fz & ->). inversion Fz as [|? vz ? ? Ez Fn]; subst. inversion Fn; subst.
      rewrite (build_edges_from _ vz) by (intros Q; now apply app_eq_nil in Q). rewrite last_last, rev_app_distr. cbn [rev app].
      rewrite (mbind_eq _ _ _ _ _ (get_vec_ok _ _ _ Ez)). pose proof (edges_ok vz (rs' ++ [z]) (ws' ++ [vz]) h ltac:(apply Forall2_app; assumption)) as Q.
      destruct (edges_from vz (ws' ++ [vz])) as [es|x]; [|exact Q]. destruct Q as (ss & t & E1 & E2). exists ss, t. split; [exact E1|]. eapply fresh_segs; exact E2.
  Qed.

  Definition step_as (m : heap T -> res (unit * heap T)) c h (r : res (hull T)) : Prop :=
    match r with
    | Raise x => m h = Raise x
    | Ok hv' => exists h', m h = Ok (tt, h') /\ linked h0 given l c h' hv'
    end.

  Lemma wrapping_ok c h hv : linked h0 given l c h hv -> step_as (obj_hull_compute_wrapping c) c h (compute_wrapping_method hv).
  Proof.
    intros (xs & v & ys & e & zs & L). destruct (h_alias hv) eqn:A.
    - destruct (clear_ok _ _ _ _ _ _ _ _ L) as (h1 & E1 & _ & L1). rewrite A in L1.
      unfold compute_wrapping_method. unfold clear_results in *. rewrite A in *. cbn [h_input get_min_point_index step_as]. exists h1. split; [|exists [], v, [], e, []; exact L1].
      destruct L1 as (Ec & El & _). unfold obj_hull_compute_wrapping. rewrite (mbind_eq _ _ _ _ _ E1), (mbind_eq _ _ _ _ _ (get_hull_ok _ _ _ _ _ Ec)). cbn beta iota.
      rewrite (mbind_eq _ _ _ _ _ (get_list_ok _ _ _ El)). cbn [read_all]. reflexivity.
    - destruct L as (Ec & El & Fx & Ix & Ev & Fy & Iy & Ee & Fz & Al & Le & Lc & Nve & Fr). rewrite A in Al. pose proof l_lt as Ll.
      pose proof (C122_hull_shares_points h c l v e xs (h_input hv) ys zs Ec El Ev Ee ltac:(lia) ltac:(lia) Nve (frame_vecs _ _ _ Fr Fx)) as Q.
      replace (compute_wrapping_method hv) with (compute_wrapping_method (ConvexHull_init (h_input hv)))
        by (unfold compute_wrapping_method, clear_results, ConvexHull_init; rewrite A; reflexivity).
      assert (As : forall hv', compute_wrapping_method (ConvexHull_init (h_input hv)) = Ok hv' -> h_alias hv' = false /\ h_input hv' = h_input hv).
      { intros hv'. unfold compute_wrapping_method. cbn [clear_results ConvexHull_init h_alias h_input]. destruct (get_min_point_index _); [|now intros [= <-]].
        destruct (_ <? _); [now intros [= <-]|]. destruct (py_get _ _); cbn [bind]; [|discriminate]. destruct (wrap_loop _ _ _ _ _ _); cbn [bind]; [|discriminate].
        destruct (build_edges _); cbn [bind]; [|discriminate]. now intros [= <-]. }
      destruct (compute_wrapping_method _) as [hv'|x]; [|exact Q]. destruct (As _ eq_refl) as [A1 A2]. destruct Q as (h' & E & Q). exists h'. split; [exact E|].
      destruct Q as (ps & ss & Qc & Ql & Qx & Qv & Qi & Qp & Qe & Qs & _ & _ & Qf). exists xs, v, ps, e, ss.
      assert (Lh : length h0 <= length h) by (apply nth_lt in Ec; lia).
      assert (Fr' : forall r, r < length h0 -> r <> l -> nth_error h' r = nth_error h0 r).
      { intros r B C. rewrite Qf by lia. auto. }
      repeat split; auto; try (rewrite A2; exact Fx); try (rewrite A1; exact Al).
      + clear - Qp Qi Fr' Fx Hl. assert (K : forall p, In p ps -> p < length h0 /\ p <> l).
        { intros p Hp. destruct (vecs_in _ _ _ _ Fx (Qi _ Hp)) as (w & Ew). split; [eapply nth_lt; exact Ew|intros ->; congruence]. }
        clear Qi. induction Qp as [|p w ps ws E F IH]; constructor; [|apply IH; intros; apply K; now right].
        destruct (K p (or_introl eq_refl)). rewrite <- Fr'; auto.
      + intros p Hp. auto.
  Qed.

  Lemma graham_ok c h hv : linked h0 given l c h hv -> step_as (obj_hull_compute_graham srt c) c h (compute_graham_scan sorter hv).
  Proof.
    intros (xs & v & ys & e & zs & L). destruct (clear_ok _ _ _ _ _ _ _ _ L) as (h1 & E1 & Ln & L1).
    assert (Lk : linked h0 given l c h1 (clear_results hv)) by (eexists _, _, _, _, _; exact L1).
    unfold compute_graham_scan. cbv zeta. set (hv1 := clear_results hv) in *. set (xs1 := if h_alias hv then [] else xs) in *.
    unfold obj_hull_compute_graham, step_as. rewrite (mbind_eq _ _ _ _ _ E1).
    destruct L1 as (Ec & El & Fx & Ix & Ev & Fy & Iy & Ee & Fz & Al & Le & Lc & Nve & Fr). pose proof l_lt as Ll.
    rewrite (mbind_eq _ _ _ _ _ (get_hull_ok _ _ _ _ _ Ec)). cbn beta iota.
    rewrite (mbind_eq _ _ _ _ _ (get_list_ok _ _ _ El)), (mbind_eq _ _ _ _ _ (read_all_ok _ _ _ (frame_vecs _ _ _ Fr Fx))).
    destruct (get_min_point_index (h_input hv1)) as [m|]; [|exists h1; split; [reflexivity|exact Lk]].
    destruct (length (h_input hv1) <? 3) eqn:E3; [exists h1; split; [reflexivity|exact Lk]|].
    cbv zeta. set (n := length (h_input hv1)) in *. set (l0 := combine xs1 (h_input hv1)).
    assert (S0 : h_input hv1 = map snd l0) by (symmetry; eapply combine_snd; exact Fx).
    assert (P0 : forall p, In p l0 -> nth_error h0 (fst p) = Some (OVec (snd p)) /\ In (fst p) given).
    { intros p Hp. destruct (combine_all _ _ _ _ Fx Hp) as [A B]. split; [exact A|auto]. }
    rewrite S0, !py_get_map, !mbind_lift. destruct (py_get l0 0) as [p0|] eqn:G0; cbn [rmap bind]; [|reflexivity]. rewrite !mbind_lift.
    destruct (py_get l0 (Z.of_nat m)) as [pm|] eqn:Gm; cbn [rmap bind]; [|reflexivity]. rewrite py_set_map, mbind_lift.
    destruct (py_set l0 0 pm) as [l1|] eqn:G1; cbn [rmap bind]; [|reflexivity]. rewrite py_set_map, mbind_lift.
    destruct (py_set l1 (Z.of_nat m) p0) as [l2|] eqn:G2; cbn [rmap bind]; [|reflexivity]. rewrite (proj2 Srt), mbind_lift.
    destruct (srt _ (fun a b : ref * vec T => angle_lt (snd a) (snd b)) l2) as [l3|] eqn:G3; cbn [rmap bind]; [|reflexivity]. rewrite graham_loop_map, mbind_lift.
    destruct (graham_loop_refs (seq 2 (n - 2)) l3 1) as [[l4 top]|] eqn:G4; cbn [rmap bind]; [|reflexivity]. rewrite py_del_map.
    set (l5 := py_del_from l4 (top + 1)). cbv zeta.
    assert (I5 : incl l5 l0).
    { intros p Hp. unfold l5, py_del_from in Hp. apply firstn_incl in Hp. revert p Hp. change (incl l4 l0).
      eapply graham_loop_incl; [exact G4|]. intros p Hp. apply (Permutation_in p (Permutation_sym (proj1 Srt _ _ _ _ G3))) in Hp. revert p Hp. change (incl l2 l0).
      apply py_get_in in G0, Gm. eapply py_set_incl; [exact G2| |exact G0]. eapply py_set_incl; [exact G1|apply incl_refl|exact Gm]. }
    assert (F5 : vecs h0 (map fst l5) (map snd l5)).
    { assert (P5 : forall p, In p l5 -> nth_error h0 (fst p) = Some (OVec (snd p))) by (intros p Hp; apply P0; auto). clear - P5.
      induction l5 as [|p l5 IH]; constructor; [apply P5; now left|apply IH; intros; apply P5; now right]. }
    assert (Lh : c < length h1 /\ v < length h1 /\ e < length h1 /\ l < length h1) by (repeat split; eapply nth_lt; eassumption). destruct Lh as (Lh1 & Lh2 & Lh3 & Lh4).
    set (h2 := list_set h1 l (OList (map fst l5))). set (h3 := list_set h2 c (OHull l l e)).
    assert (Nce : c <> e) by (intros ->; congruence).
    assert (B3 : (mbind (wr l (OList (map fst l5))) (fun _ => mbind (wr c (OHull l l e)) (fun _ =>
        mbind (obj_build_edges (map fst l5)) (fun es => mbind (lift (py_get (map fst l5) 0)) (fun f => mbind (lift (py_get (map fst l5) (-1))) (fun z => mbind (obj_seg_new f z) (fun s => wr e (OList (es ++ [s])))))))) h1) =
      (mbind (obj_build_edges (map fst l5)) (fun es => mbind (lift (py_get (map fst l5) 0)) (fun f => mbind (lift (py_get (map fst l5) (-1))) (fun z => mbind (obj_seg_new f z) (fun s => wr e (OList (es ++ [s])))))) h3)) by reflexivity.
    rewrite B3. clear B3.
    assert (Fr3 : forall r, r < length h0 -> r <> l -> nth_error h3 r = nth_error h0 r).
    { intros r A B. unfold h3, h2. rewrite !nth_set_ne by (auto; lia). auto. }
    assert (F53 : vecs h3 (map fst l5) (map snd l5)) by (eapply frame_vecs; eassumption).
    pose proof (build_ok _ _ _ F53) as BE. destruct (build_edges (map snd l5)) as [es|x]; cbn [bind]; [|unfold mbind at 1; now rewrite BE].
    destruct BE as (ss & t & BE & Rs). rewrite (mbind_eq _ _ _ _ _ BE). rewrite !py_get_map, mbind_lift.
    destruct (py_get l5 0) as [f|] eqn:Gf; cbn [rmap bind]; [|reflexivity]. rewrite mbind_lift. destruct (py_get l5 (-1)) as [z|] eqn:Gz; cbn [rmap bind]; [|reflexivity].
    apply py_get_in in Gf, Gz.
    assert (K3 : forall p, In p l5 -> nth_error (h3 ++ t) (fst p) = Some (OVec (snd p))).
    { intros p Hp. apply nth_app_old. destruct (P0 p (I5 p Hp)) as [A _]. rewrite Fr3; [exact A|eapply nth_lt; exact A|]. intros Q. rewrite Q in A. congruence. }
    destruct (seg_new_ok _ _ _ _ _ (K3 _ Gf) (K3 _ Gz)) as (t' & ES & Lt & RS). rewrite (mbind_eq _ _ _ _ _ ES). rewrite <- app_assoc in *.
    set (s := S (S (length (h3 ++ t)))) in *. set (h4 := h3 ++ t ++ t') in *.
    assert (L3 : length h3 = length h1) by (unfold h3, h2; now rewrite !set_len).
    assert (O4 : forall r o, nth_error h3 r = Some o -> nth_error h4 r = Some o) by (intros r o; apply nth_app_old).
    assert (E4 : nth_error h4 e = Some (OList [])).
    { apply O4. unfold h3, h2. rewrite !nth_set_ne by lia. exact Ee. }
    exists (list_set h4 e (OList (ss ++ [s]))). split; [reflexivity|].
    exists (map fst l5), l, (map fst l5), e, (ss ++ [s]). unfold linked_at, hull_vertices. cbn [h_alias h_input h_edges].
    assert (Q1 : nth_error (list_set h4 e (OList (ss ++ [s]))) l = Some (OList (map fst l5))).
    { rewrite nth_set_ne by lia. apply O4. unfold h3. rewrite nth_set_ne by lia. unfold h2. now apply nth_set_eq. }
    assert (Q2 : incl (map fst l5) given).
    { intros r Hr. apply in_map_iff in Hr as (p & <- & Hp). apply P0. auto. }
    assert (KK : keeps h4 (list_set h4 e (OList (ss ++ [s])))) by (eapply keeps_set; [exact E4|exact Logic.I]).
    split; [rewrite nth_set_ne by auto; apply O4; unfold h3; apply nth_set_eq; unfold h2; now rewrite set_len|].
    split; [exact Q1|]. split; [exact F5|]. split; [exact Q2|]. split; [exact Q1|]. split; [exact F5|]. split; [exact Q2|].
    split; [apply nth_set_eq; eapply nth_lt; exact E4|].
    split.
    { apply (segs_keeps _ _ _ _ KK). apply Forall2_app; [|constructor; [exact RS|constructor]]. unfold h4. rewrite app_assoc. eapply segs_keeps; [apply keeps_app|exact Rs]. }
    split; [reflexivity|]. split; [exact Le|]. split; [exact Lc|]. split; [lia|].
    intros r A B. rewrite nth_set_ne by lia. unfold h4. rewrite nth_error_app1 by lia. auto.
  Qed.

  Lemma direct_ok c h hv : linked h0 given l c h hv -> step_as (obj_hull_compute_direct srt c) c h (compute_direct_method sorter hv).
  Proof.
    intros (xs & v & ys & e & zs & L). destruct (clear_ok _ _ _ _ _ _ _ _ L) as (h1 & E1 & Ln & L1).
    assert (Lk : linked h0 given l c h1 (clear_results hv)) by (eexists _, _, _, _, _; exact L1).
    unfold compute_direct_method. cbv zeta. unfold obj_hull_compute_direct, step_as. rewrite (mbind_eq _ _ _ _ _ E1).
    destruct (h_alias hv) eqn:A0.
    { destruct L1 as (Ec & El & _). rewrite (mbind_eq _ _ _ _ _ (get_hull_ok _ _ _ _ _ Ec)). cbn beta iota. rewrite (mbind_eq _ _ _ _ _ (get_list_ok _ _ _ El)).
      unfold clear_results in *. rewrite A0 in *. cbn [h_input length]. exists h1. split; [reflexivity|exact Lk]. }
    assert (A1 : h_alias (clear_results hv) = false) by (unfold clear_results; now rewrite A0).
    set (hv1 := clear_results hv) in *.
    destruct L1 as (Ec & El & Fx & Ix & Ev & Fy & Iy & Ee & Fz & Al & Le & Lc & Nve & Fr). pose proof l_lt as Ll. rewrite A1 in Al.
    rewrite (mbind_eq _ _ _ _ _ (get_hull_ok _ _ _ _ _ Ec)). cbn beta iota.
    rewrite (mbind_eq _ _ _ _ _ (get_list_ok _ _ _ El)), (mbind_eq _ _ _ _ _ (read_all_ok _ _ _ (frame_vecs _ _ _ Fr Fx))).
    destruct (length (h_input hv1) <? 3) eqn:E3; [exists h1; split; [reflexivity|exact Lk]|].
    set (n := length (h_input hv1)) in *. set (l0 := combine xs (h_input hv1)).
    assert (S0 : h_input hv1 = map snd l0) by (symmetry; eapply combine_snd; exact Fx).
    assert (P0 : forall p, In p l0 -> nth_error h0 (fst p) = Some (OVec (snd p)) /\ In (fst p) given).
    { intros p Hp. destruct (combine_all _ _ _ _ Fx Hp) as [A B]. split; [exact A|auto]. }
    assert (K1 : forall p, In p l0 -> nth_error h1 (fst p) = Some (OVec (snd p))).
    { intros p Hp. destruct (P0 p Hp) as [A _]. rewrite Fr; [exact A|eapply nth_lt; exact A|]. intros Q. rewrite Q in A. congruence. }
    rewrite mbind_lift. pose proof (direct_fold_ok l0 (direct_pairs n) (Ok ([], [])) (Ok ([], [])) ltac:(repeat split; [intros ? []|constructor])) as FD.
    rewrite <- S0 in FD. destruct (fold_left (direct_step_refs l0) _ _) as [[ps es]|x], (fold_left (direct_step (h_input hv1)) _ _) as [[vs ss]|y]; cbn [same_acc] in FD; try (destruct FD; fail); cbn [bind]; [|now subst].
    destruct FD as (-> & Ip & Fe). destruct (new_segs_ok l0 es ss h1 K1 Fe) as (rs & t & EN & RN). rewrite (mbind_eq _ _ _ _ _ EN).
    assert (Lh : c < length h1 /\ v < length h1 /\ e < length h1 /\ l < length h1) by (repeat split; eapply nth_lt; eassumption). destruct Lh as (Lh1 & Lh2 & Lh3 & Lh4).
    set (h2 := list_set (h1 ++ t) e (OList rs)).
    rewrite (mbind_eq _ _ _ _ _ (eq_refl : wr e (OList rs) (h1 ++ t) = Ok (tt, h2))).
    assert (Nce : c <> e) by (intros ->; congruence). assert (Ncv : c <> v) by (intros ->; congruence).
    assert (O2 : forall r o, r <> e -> nth_error h1 r = Some o -> nth_error h2 r = Some o) by (intros r o B C; unfold h2; rewrite nth_set_ne by auto; now apply nth_app_old).
    assert (E2 : nth_error h2 e = Some (OList rs)) by (unfold h2; apply nth_set_eq; rewrite app_length; lia).
    assert (R2 : segs h2 rs ss) by (apply (segs_keeps (h1 ++ t)); [eapply keeps_set; [apply nth_app_old; exact Ee|exact Logic.I]|exact RN]).
    assert (Fr2 : forall r, r < length h0 -> r <> l -> nth_error h2 r = nth_error h0 r) by (intros r B C; unfold h2; rewrite nth_set_ne, nth_error_app1 by lia; auto).
    destruct ps as [|p ps].
    { cbn [map]. exists h2. split; [reflexivity|]. exists xs, v, [], e, rs. unfold linked_at. cbn [h_alias h_input h_vertices h_edges hull_vertices].
      repeat split; auto; try (constructor; fail); try (intros ? []; fail); apply O2; auto; lia. }
    cbn [map]. change (snd p :: map snd ps) with (map snd (p :: ps)). set (q := p :: ps) in *. rewrite (proj2 Srt), mbind_lift.
    destruct (srt _ (fun a b : ref * vec T => angle_lt (snd a) (snd b)) q) as [l3|] eqn:G3; cbn [rmap bind]; [|reflexivity].
    assert (I3 : incl l3 l0) by (intros a Ha; apply Ip; eapply Permutation_in; [apply Permutation_sym; exact (proj1 Srt _ _ _ _ G3)|exact Ha]).
    destruct (list2set_ok h0 l3 ltac:(intros a Ha; destruct (P0 a (I3 a Ha)); eauto)) as [M1 M2].
    set (l4 := list2set_refs l3) in *. set (h3 := list_set h2 v (OList (map fst l3))). set (h4 := h3 ++ [OList (map fst l4)]).
    rewrite (mbind_eq _ _ _ _ _ (eq_refl : wr v (OList (map fst l3)) h2 = Ok (tt, h3))).
    rewrite (mbind_eq _ _ _ _ _ (eq_refl : new (OList (map fst l4)) h3 = Ok (length h3, h4))).
    assert (L3 : length h3 = length h1 + length t) by (unfold h3, h2; now rewrite !set_len, app_length).
    exists (list_set h4 c (OHull l (length h3) e)). split; [reflexivity|].
    exists xs, (length h3), (map fst l4), e, rs. unfold linked_at. cbn [h_alias h_input h_vertices h_edges hull_vertices].
    assert (O4 : forall r o, r <> e -> r <> v -> r <> c -> nth_error h1 r = Some o -> nth_error (list_set h4 c (OHull l (length h3) e)) r = Some o).
    { intros r o B C D E. rewrite nth_set_ne by auto. unfold h4. apply nth_app_old. unfold h3. rewrite nth_set_ne by auto. auto. }
    assert (E4 : nth_error h4 e = Some (OList rs)) by (unfold h4; apply nth_app_old; unfold h3; rewrite nth_set_ne by auto; exact E2).
    assert (Ec4 : nth_error h4 c = Some (OHull l v e)) by (unfold h4; apply nth_app_old; unfold h3; rewrite nth_set_ne by auto; auto).
    split; [apply nth_set_eq; eapply nth_lt; exact Ec4|]. split; [apply O4; auto; lia|]. split; [exact Fx|]. split; [exact Ix|].
    split; [rewrite nth_set_ne by lia; unfold h4; apply nth_app_new|]. split.
    { rewrite <- M1. assert (P4 : forall a, In a l4 -> nth_error h0 (fst a) = Some (OVec (snd a))) by (intros a Ha; apply P0; auto). clear - P4.
      induction l4 as [|a l4 IH]; constructor; [apply P4; now left|apply IH; intros; apply P4; now right]. }
    split; [intros r Hr; apply in_map_iff in Hr as (a & <- & Ha); apply P0; auto|].
    split; [rewrite nth_set_ne by auto; exact E4|]. split.
    { apply (segs_keeps h2); [|exact R2]. eapply keeps_trans; [eapply (keeps_set _ v); [apply O2; [auto|exact Ev]|exact Logic.I]|].
      eapply keeps_trans; [apply keeps_app|]. eapply keeps_set; [exact Ec4|exact Logic.I]. }
    split; [lia|]. split; [exact Le|]. split; [exact Lc|]. split; [lia|].
    intros r B C. rewrite nth_set_ne by lia. unfold h4. rewrite nth_error_app1 by lia. unfold h3. rewrite nth_set_ne by lia. auto.
  Qed.

  (** writing the caller's list *)
  Lemma write_list c h hv xs v ys e zs xs' hv' : linked_at h0 given l c h hv xs v ys e zs ->
    vecs h0 xs' (h_input hv') -> incl xs' given -> h_alias hv' = h_alias hv -> h_edges hv' = h_edges hv -> h_vertices hv' = h_vertices hv ->
    linked h0 given l c (list_set h l (OList xs')) hv'.
  Proof.
    intros (Ec & El & Fx & Ix & Ev & Fy & Iy & Ee & Fz & Al & Le & Lc & Nve & Fr) Fx' Ix' A B C. pose proof l_lt as Ll.
    assert (Q : nth_error (list_set h l (OList xs')) l = Some (OList xs')) by (apply nth_set_eq; eapply nth_lt; exact El).
    assert (K : keeps h (list_set h l (OList xs'))) by (eapply keeps_set; [exact El|exact Logic.I]).
    exists xs', v, (if h_alias hv then xs' else ys), e, zs. unfold linked_at, hull_vertices in *. rewrite A, B, C.
    destruct (h_alias hv).
    - subst v. repeat split; auto; try (rewrite nth_set_ne by lia; assumption); [eapply segs_keeps; eassumption|].
      intros r D E. rewrite nth_set_ne by auto. auto.
    - repeat split; auto; try (rewrite nth_set_ne by lia; assumption); [eapply segs_keeps; eassumption|].
      intros r D E. rewrite nth_set_ne by auto. auto.
  Qed.

  Lemma append_ok c h hv q w : linked h0 given l c h hv -> nth_error h0 q = Some (OVec w) -> In q given ->
    exists h', obj_list_append l q h = Ok (tt, h') /\ linked h0 given l c h' (ConvexHull_add_points hv [w]).
  Proof.
    intros (xs & v & ys & e & zs & L) Q G. assert (L' := L). destruct L' as (Ec & El & Fx & Ix & _).
    exists (list_set h l (OList (xs ++ [q]))). split.
    - unfold obj_list_append. rewrite (mbind_eq _ _ _ _ _ (get_list_ok _ _ _ El)). reflexivity.
    - eapply (write_list c h hv xs v ys e zs); try reflexivity; [exact L| |].
      + apply Forall2_app; [exact Fx|constructor; [exact Q|constructor]].
      + intros r Hr. apply in_app_or in Hr as [Hr|[<-|[]]]; auto.
  Qed.
  Lemma add_point_ok c h hv q w : linked h0 given l c h hv -> nth_error h0 q = Some (OVec w) -> In q given ->
    exists h', obj_hull_add_point c q h = Ok (tt, h') /\ linked h0 given l c h' (ConvexHull_add_points hv [w]).
  Proof.
    intros L Q G. destruct (append_ok _ _ _ _ _ L Q G) as (h' & E & L'). exists h'. split; [|exact L'].
    destruct L as (xs & v & ys & e & zs & Ec & _). unfold obj_hull_add_point. rewrite (mbind_eq _ _ _ _ _ (get_hull_ok _ _ _ _ _ Ec)). exact E.
  Qed.
  Lemma add_points_ok c k ks : nth_error h0 k = Some (OList ks) -> k <> l -> incl ks given -> forall ws, vecs h0 ks ws -> forall h hv, linked h0 given l c h hv ->
    exists h', obj_hull_add_points c k h = Ok (tt, h') /\ linked h0 given l c h' (ConvexHull_add_points hv ws).
  Proof.
    intros Ek Nk Ik. assert (Lk : k < length h0) by (eapply nth_lt; exact Ek).
    assert (G : forall rest pre ws h hv, ks = pre ++ rest -> vecs h0 rest ws -> linked h0 given l c h hv ->
      exists h', obj_add_points_loop (S (length rest)) c k (length pre) h = Ok (tt, h') /\ linked h0 given l c h' (ConvexHull_add_points hv ws)).
    { induction rest as [|r rest IH]; intros pre ws h hv E F L.
      - inversion F; subst. assert (Eh : nth_error h k = Some (OList (pre ++ []))) by (destruct L as (? & ? & ? & ? & ? & L); rewrite (proj2 (proj2 (proj2 (proj2 (proj2 (proj2 (proj2 (proj2 (proj2 (proj2 (proj2 (proj2 (proj2 L))))))))))))); auto).
        exists h. split; [|unfold ConvexHull_add_points; rewrite app_nil_r; destruct hv; exact L].
        cbn [obj_add_points_loop length]. rewrite (mbind_eq _ _ _ _ _ (get_list_ok _ _ _ Eh)), app_nil_r.
        rewrite (proj2 (nth_error_None pre (length pre))) by lia. reflexivity.
      - inversion F as [|? w ? ws' Er F']; subst. assert (Eh : nth_error h k = Some (OList (pre ++ r :: rest))) by (destruct L as (? & ? & ? & ? & ? & L); rewrite (proj2 (proj2 (proj2 (proj2 (proj2 (proj2 (proj2 (proj2 (proj2 (proj2 (proj2 (proj2 (proj2 L))))))))))))); auto).
        destruct (add_point_ok _ _ _ r w L Er (Ik r ltac:(apply in_or_app; right; now left))) as (h1 & E1 & L1).
        destruct (IH (pre ++ [r]) ws' h1 _ ltac:(now rewrite <- app_assoc) F' L1) as (h2 & E2 & L2).
        exists h2. split.
        + change (length (r :: rest)) with (S (length rest)). cbn [obj_add_points_loop]. rewrite (mbind_eq _ _ _ _ _ (get_list_ok _ _ _ Eh)).
          rewrite nth_error_app2, Nat.sub_diag by lia. cbn [nth_error]. rewrite (mbind_eq _ _ _ _ _ E1). rewrite app_length in E2. cbn [length] in E2. rewrite Nat.add_1_r in E2. exact E2.
        + unfold ConvexHull_add_points in *. cbn [h_input h_vertices h_edges h_alias] in *. rewrite <- app_assoc in L2. exact L2. }
    intros ws F h hv L. destruct (G ks [] ws h hv eq_refl F L) as (h' & E' & L'). exists h'. split; [|exact L'].
    assert (Eh : nth_error h k = Some (OList ks)) by (destruct L as (? & ? & ? & ? & ? & L); rewrite (proj2 (proj2 (proj2 (proj2 (proj2 (proj2 (proj2 (proj2 (proj2 (proj2 (proj2 (proj2 (proj2 L))))))))))))); auto).
    unfold obj_hull_add_points. rewrite (mbind_eq _ _ _ _ _ (get_list_ok _ _ _ Eh)). exact E'.
  Qed.

  (** What a call does to the state of the value-level model. *)
  Inductive means : hobj_call -> (hull T -> res (hull T)) -> Prop :=
  | means_add_point q w : nth_error h0 q = Some (OVec w) -> In q given ->
      means (HAddPoint q) (fun hv => hull_step sorter hv (CallAddPoints [w]))
  | means_add_points k ks ws : k <> l -> nth_error h0 k = Some (OList ks) -> vecs h0 ks ws -> incl ks given ->
      means (HAddPoints k) (fun hv => hull_step sorter hv (CallAddPoints ws))
  | means_clear : means HClear (fun hv => hull_step sorter hv CallClear)
  | means_clear_results : means HClearResults (fun hv => hull_step sorter hv CallClearResults)
  | means_compute m : means (HCompute m) (fun hv => hull_step sorter hv (CallCompute m))
  | means_append q w : nth_error h0 q = Some (OVec w) -> In q given ->
      means (HListAppend q) (fun hv => hull_step sorter hv (CallAddPoints [w]))
  | means_list_clear : means HListClear (fun hv => Ok (mkHull [] (h_vertices hv) (h_edges hv) (h_alias hv))).
  Fixpoint in_turn (fs : list (hull T -> res (hull T))) hv : res (hull T) :=
    match fs with [] => Ok hv | f :: fs' => bind (f hv) (in_turn fs') end.

  Lemma step_ok c x f h hv : linked h0 given l c h hv -> means x f -> step_as (hobj_step srt c l x) c h (f hv).
  Proof.
    intros L M. destruct M as [q w E I|k ks ws N E F I| | |m|q w E I|]; cbn [hull_step hobj_step step_as].
    - now apply add_point_ok.
    - now apply (add_points_ok c k ks).
    - destruct L as (xs & v & ys & e & zs & L). destruct (clear_ok _ _ _ _ _ _ _ _ L) as (h1 & E1 & _ & L1). exists (list_set h1 l (OList [])). split.
      + unfold obj_hull_clear. rewrite (mbind_eq _ _ _ _ _ E1). destruct L1 as (Ec & _). rewrite (mbind_eq _ _ _ _ _ (get_hull_ok _ _ _ _ _ Ec)). reflexivity.
      + eapply write_list; [exact L1| | | | |]; cbn [ConvexHull_clear h_input h_alias h_edges h_vertices]; try reflexivity; [constructor|intros ? []].
    - destruct L as (xs & v & ys & e & zs & L). destruct (clear_ok _ _ _ _ _ _ _ _ L) as (h1 & E1 & _ & L1). exists h1. split; [exact E1|]. eexists _, _, _, _, _. exact L1.
    - destruct m; cbn [ConvexHull_compute obj_hull_compute]; [now apply direct_ok|now apply wrapping_ok|now apply graham_ok].
    - now apply append_ok.
    - destruct L as (xs & v & ys & e & zs & L). exists (list_set h l (OList [])). split.
      + destruct L as (_ & El & _). rewrite (mbind_eq _ _ _ _ _ (get_list_ok _ _ _ El)). reflexivity.
      + eapply write_list; [exact L| | | | |]; try reflexivity; [constructor|intros ? []].
  Qed.
  Lemma run_ok c xs : forall fs h hv, linked h0 given l c h hv -> Forall2 means xs fs -> step_as (hobj_run srt c l xs) c h (in_turn fs hv).
  Proof.
    induction xs as [|x xs IH]; intros fs h hv L F; inversion F as [|? f ? fs' M F']; subst; cbn [hobj_run in_turn].
    - exists h. split; [reflexivity|exact L].
    - pose proof (step_ok _ _ _ _ _ L M) as S1. destruct (f hv) as [hv1|y]; cbn [bind step_as] in *; [|unfold mbind; now rewrite S1].
      destruct S1 as (h1 & E1 & L1). pose proof (IH fs' h1 hv1 L1 F') as S2. unfold step_as in *. rewrite (mbind_eq _ _ _ _ _ E1). exact S2.
  Qed.
  Lemma new_ok vs0 : vecs h0 xs0 vs0 -> incl xs0 given -> exists c h1, obj_hull_new l h0 = Ok (c, h1) /\ length h0 <= c /\ linked h0 given l c h1 (ConvexHull_init vs0).
  Proof.
    intros F I. set (h1 := ((h0 ++ [OList []]) ++ [OList []]) ++ [OHull l (length h0) (S (length h0))]). exists (S (S (length h0))), h1. pose proof l_lt as Ll.
    split; [|split; [lia|]].
    - unfold obj_hull_new, mbind, new, h1. rewrite !app_length. cbn [length]. replace (length h0 + 1) with (S (length h0)) by lia. now replace (S (length h0) + 1) with (S (S (length h0))) by lia.
    - assert (E1 : nth_error h1 (length h0) = Some (OList [])) by (unfold h1; do 1 apply nth_app_old; apply nth_app_old, nth_app_new).
      assert (E2 : nth_error h1 (S (length h0)) = Some (OList [])).
      { unfold h1. apply nth_app_old. replace (S (length h0)) with (length (h0 ++ [@OList T []])) by (rewrite app_length; cbn; lia). apply nth_app_new. }
      assert (E3 : nth_error h1 (S (S (length h0))) = Some (OHull l (length h0) (S (length h0)))).
      { unfold h1. replace (S (S (length h0))) with (length ((h0 ++ [@OList T []]) ++ [OList []])) at 1 by (rewrite !app_length; cbn; lia). apply nth_app_new. }
      exists xs0, (length h0), [], (S (length h0)), []. unfold linked_at. cbn [ConvexHull_init h_alias h_input h_edges h_vertices hull_vertices].
      repeat split; auto; try (constructor; fail); try (intros ? []; fail).
      + unfold h1. do 3 apply nth_app_old. exact Hl.
      + intros r A B. unfold h1. rewrite <- !app_assoc. apply nth_error_app1. exact A.
  Qed.

  (** C190: a hull made from the caller's list goes through the states of the
      value-level model, whatever the history of calls on it and of changes to
      that list. *)
  Theorem C190_hull_history vs0 calls fs : vecs h0 xs0 vs0 -> incl xs0 given -> Forall2 means calls fs ->
    exists c h1, obj_hull_new l h0 = Ok (c, h1) /\
    match in_turn fs (ConvexHull_init vs0) with
    | Raise x => hobj_run srt c l calls h1 = Raise x
    | Ok hv => exists h, hobj_run srt c l calls h1 = Ok (tt, h) /\ linked h0 given l c h hv
    end.
  Proof.
    intros F I M. destruct (new_ok vs0 F I) as (c & h1 & E & _ & L). exists c, h1. split; [exact E|]. exact (run_ok c calls fs h1 _ L M).
  Qed.

  Lemma alias_compute m hv : h_alias hv = true -> ConvexHull_compute sorter m hv = Ok (mkHull [] [] [] true).
  Proof.
    intros A. destruct m; cbn [ConvexHull_compute]; [unfold compute_direct_method|unfold compute_wrapping_method|unfold compute_graham_scan]; unfold clear_results; rewrite A; reflexivity.
  Qed.
  Lemma alias_stays x f hv hv' : means x f -> h_alias hv = true -> f hv = Ok hv' -> h_alias hv' = true.
  Proof.
    intros M A. destruct M as [| | | |m| |]; cbn [hull_step]; try (intros [= <-]; cbn; auto; fail).
    - intros [= <-]. unfold ConvexHull_clear, clear_results. now rewrite A.
    - intros [= <-]. unfold clear_results. now rewrite A.
    - rewrite alias_compute by exact A. now intros [= <-].
  Qed.
  Lemma alias_run xs : forall fs hv hv', Forall2 means xs fs -> h_alias hv = true -> in_turn fs hv = Ok hv' -> h_alias hv' = true.
  Proof.
    induction xs as [|x xs IH]; intros fs hv hv' F A; inversion F as [|? f ? fs' M F']; subst; cbn [in_turn]; [now intros [= <-]|].
    destruct (f hv) as [hv1|] eqn:E; cbn [bind]; [|discriminate]. apply IH; [exact F'|]. eapply alias_stays; eassumption.
  Qed.
  Lemma graham_alias vs0 hv : 3 <= length vs0 -> compute_graham_scan sorter (ConvexHull_init vs0) = Ok hv -> h_alias hv = true.
  Proof.
    intros N. unfold compute_graham_scan. cbn [clear_results ConvexHull_init h_alias h_input]. destruct vs0 as [|v0 vs']; [cbn in N; lia|]. set (vs := v0 :: vs') in *.
    cbn [get_min_point_index vs]. destruct (Nat.ltb_spec (length vs) 3); [lia|].
    repeat (match goal with |- bind ?r _ = _ -> _ => destruct r as [?|]; cbn [bind]; [|discriminate] | |- context [let '(_, _) := ?p in _] => destruct p end). now intros [= <-].
  Qed.

  (** C190: a Graham scan of three or more points makes the caller's list the
      vertex list, for good: it holds some of its points in a new order, and
      whatever is called or added after that, the next computation finds no
      points and leaves the caller's list and the edges empty. *)
  Theorem C190_graham_takes_the_list vs0 c h1 h2 : vecs h0 xs0 vs0 -> incl xs0 given -> 3 <= length xs0 -> obj_hull_new l h0 = Ok (c, h1) ->
    obj_hull_compute srt GRAHAN_SCAN c h1 = Ok (tt, h2) ->
    obj_hull_vertices_ c h2 = Ok (l, h2) /\
    (exists ys, nth_error h2 l = Some (OList ys) /\ incl ys given) /\
    forall calls fs h3, Forall2 means calls fs -> hobj_run srt c l calls h2 = Ok (tt, h3) ->
      forall m, exists h4 e, obj_hull_compute srt m c h3 = Ok (tt, h4) /\ obj_hull_vertices_ c h4 = Ok (l, h4) /\ nth_error h4 l = Some (OList []) /\
        obj_hull_edges_ c h4 = Ok (e, h4) /\ nth_error h4 e = Some (OList []).
  Proof.
    intros F I N En Eg. destruct (new_ok vs0 F I) as (c' & h1' & En' & _ & L). rewrite En in En'. injection En' as <- <-.
    pose proof (graham_ok c h1 _ L) as G. cbn [obj_hull_compute] in Eg. unfold step_as in G.
    destruct (compute_graham_scan sorter (ConvexHull_init vs0)) as [hv|] eqn:EG; [|congruence]. destruct G as (h2' & E2 & L2). rewrite Eg in E2. injection E2 as <-.
    apply graham_alias in EG; [|now rewrite <- (F2_length (A := ref) _ _ _ F)].
    split; [|split].
    - destruct L2 as (xs & v & ys & e & zs & Ec & _ & _ & _ & _ & _ & _ & _ & _ & Al & _). rewrite EG in Al. subst v.
      unfold obj_hull_vertices_. rewrite (mbind_eq _ _ _ _ _ (get_hull_ok _ _ _ _ _ Ec)). reflexivity.
    - destruct L2 as (xs & v & ys & e & zs & _ & El & _ & Ix & _). eauto.
    - intros calls fs h3 M R m. pose proof (run_ok c calls fs h2 hv L2 M) as S3. unfold step_as in S3.
      destruct (in_turn fs hv) as [hv3|] eqn:E3; [|congruence]. destruct S3 as (h3' & R' & L3). rewrite R in R'. injection R' as <-.
      pose proof (alias_run calls fs hv hv3 M EG E3) as A3.
      pose proof (step_ok c _ _ h3 hv3 L3 (means_compute m)) as S4. cbn [hull_step hobj_step] in S4. rewrite alias_compute in S4 by exact A3. destruct S4 as (h4 & E4 & L4).
      destruct L4 as (xs & v & ys & e & zs & Ec & El & Fx & _ & _ & _ & _ & Ee & Fz & Al & _). cbn [h_alias h_input h_edges] in *. subst v.
      exists h4, e. inversion Fx; subst. inversion Fz; subst.
      split; [exact E4|]. split; [unfold obj_hull_vertices_; rewrite (mbind_eq _ _ _ _ _ (get_hull_ok _ _ _ _ _ Ec)); reflexivity|]. split; [exact El|].
      split; [unfold obj_hull_edges_; rewrite (mbind_eq _ _ _ _ _ (get_hull_ok _ _ _ _ _ Ec)); reflexivity|]. exact Ee.
  Qed.
End HullHistory.

Section OwnList.
  Context {T : Type} `{Num T}.
  (** C190: add_points given the hull's own input list does not end unless that
      list is empty: however many turns of its loop are allowed. *)
  Theorem C190_add_own_points (h : heap T) (c l v e : ref) xs :
    nth_error h c = Some (OHull l v e) -> nth_error h l = Some (OList xs) -> xs <> [] ->
    forall fuel, obj_add_points_loop fuel c l 0 h = Raise NonTermination.
  Proof.
    intros Ec El N fuel. assert (J : 0 < length xs) by (destruct xs; [congruence|cbn; lia]). clear N.
    revert J El Ec. generalize 0 as j. revert xs h. induction fuel as [|fuel IH]; intros xs h j J El Ec; cbn [obj_add_points_loop]; [reflexivity|].
    rewrite (mbind_eq _ _ _ _ _ (get_list_ok _ _ _ El)). destruct (nth_error xs j) as [p|] eqn:E; [|apply nth_error_None in E; lia].
    assert (A : obj_hull_add_point c p h = Ok (tt, list_set h l (OList (xs ++ [p])))).
    { unfold obj_hull_add_point. rewrite (mbind_eq _ _ _ _ _ (get_hull_ok _ _ _ _ _ Ec)). unfold obj_list_append. rewrite (mbind_eq _ _ _ _ _ (get_list_ok _ _ _ El)). reflexivity. }
    rewrite (mbind_eq _ _ _ _ _ A). apply (IH (xs ++ [p])).
    - rewrite app_length. cbn. lia.
    - apply nth_set_eq. eapply nth_lt; exact El.
    - rewrite nth_set_ne; [exact Ec|]. intros ->. congruence.
  Qed.
End OwnList.

(** a square and a point in the middle, another list with a far point, and a
    history with a Graham scan, more points and another computation *)
Definition sq_heap : heap R :=
  map OVec [mkVec 0 0 true; mkVec 1 0 true; mkVec 1 1 true; mkVec 0 1 true; mkVec (1/2) (1/2) true; mkVec 5 7 true]%R ++ [OList [0; 1; 2; 3; 4]; OList [5; 0]].
Example C190_nonvacuous :
  sorts (@any_sort_small) /\ nth_error sq_heap 6 = Some (OList [0; 1; 2; 3; 4]) /\
  vecs sq_heap [0; 1; 2; 3; 4] [mkVec 0 0 true; mkVec 1 0 true; mkVec 1 1 true; mkVec 0 1 true; mkVec (1/2) (1/2) true]%R /\
  incl [0; 1; 2; 3; 4] [0; 1; 2; 3; 4; 5] /\
  (forall q w, nth_error sq_heap q = Some (OVec w) -> Vector2D_eq w w = true) /\
  exists fs, Forall2 (means (@any_sort_small) sq_heap 6 [0; 1; 2; 3; 4; 5])
    [HCompute WRAPPING_METHOD; HAddPoints 7; HCompute DIRECT_METHOD; HListAppend 5; HCompute GRAHAN_SCAN; HAddPoint 4; HListClear; HClear; HClearResults] fs.
Proof.
  split; [exact small_sorts|]. split; [reflexivity|]. split; [repeat constructor|]. split; [intros r; cbn; tauto|]. split.
  - intros q w _. unfold Vector2D_eq. cbn [neqb NumR]. now rewrite !(proj2 (Req_bool_iff _ _) eq_refl).
  - eexists. repeat (constructor; [first [apply means_compute | eapply (means_add_points _ _ _ _ 7 [5; 0] [_; _]); [discriminate|reflexivity|repeat constructor|intros r; cbn; tauto] | eapply means_append; [reflexivity|cbn; tauto] | eapply means_add_point; [reflexivity|cbn; tauto] | apply means_list_clear | apply means_clear | apply means_clear_results]|]). constructor.
Qed.
(** four points in doubles, of which the Graham scan keeps three *)
Example C190_graham_nonvacuous : forall L, exists c h1 h2,
  let h0 : heap F := map OVec [fv 2 0; fv 3 (-2); fv (-1) (-2); fv (-2) (-3)] ++ [OList [0; 1; 2; 3]] in
  vecs h0 [0; 1; 2; 3] [fv 2 0; fv 3 (-2); fv (-1) (-2); fv (-2) (-3)] /\ 3 <= length [0; 1; 2; 3] /\
  @obj_hull_new F 4 h0 = Ok (c, h1) /\ @obj_hull_compute F (NumF L) (@any_sort_small) GRAHAN_SCAN c h1 = Ok (tt, h2) /\
  exists ys, nth_error h2 4 = Some (OList ys) /\ length ys = 3.
Proof.
  intros L. set (h0 := map OVec _ ++ _). exists 7, (((h0 ++ [OList []]) ++ [OList []]) ++ [OHull 4 5 6]).
  assert (W : exists h, @obj_hull_compute F (NumF L) (@any_sort_small) GRAHAN_SCAN 7 (((h0 ++ [OList []]) ++ [OList []]) ++ [OHull 4 5 6]) = Ok (tt, h) /\
    exists ys, nth_error h 4 = Some (OList ys) /\ length ys = 3).
  { remember (@obj_hull_compute F (NumF L) (@any_sort_small) GRAHAN_SCAN 7 (((h0 ++ [OList []]) ++ [OList []]) ++ [OHull 4 5 6])) as r eqn:Er.
    assert (E : match r with Ok (_, h) => match nth_error h 4 with Some (OList ys) => Nat.eqb (length ys) 3 | _ => false end | _ => false end = true) by (subst r; vm_compute; reflexivity).
    clear Er. destruct r as [[[] h]|]; [|discriminate]. exists h. split; [reflexivity|]. clear h0.
    destruct (nth_error h 4) as [[]|]; try discriminate. eexists. split; [reflexivity|]. now apply Nat.eqb_eq. }
  destruct W as (h & W1 & W2). exists h. cbv zeta. split; [repeat constructor|]. split; [cbn; lia|]. split; [reflexivity|]. split; [exact W1|exact W2].
Qed.
(** a hull with one point, given its own list *)
Example C190_own_nonvacuous :
  nth_error [OVec (mkVec 1 0 true)%R; OList [0]; OList []; OList []; OHull 1 2 3] 4 = Some (OHull 1 2 3) /\
  nth_error [OVec (mkVec 1 0 true)%R; OList [0]; OList []; OList []; OHull 1 2 3] 1 = Some (OList [0]) /\ [0] <> [].
Proof. repeat split. discriminate. Qed.
