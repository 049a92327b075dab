(** * P_Hull2: properties C75 (refutation), C76, C77, C78, C102 (other methods, helpers) *)
From Coq Require Import ZArith List Bool String Reals Lra Lia Psatz Permutation Classical.
From Flocq Require Import Core BinarySingleNaN.
From Verif Require Import Base Types NumR NumF R_Tac Spec Spec2 Abs M_Vector M_Triangle M_Segment M_Polygon M_Hull
  P_Vector L_Seg P_Segment P_Polygon P_Polygon2 P_Polygon3 L_Float P_Hull.
Import ListNotations.
Local Open Scope R_scope.

Ltac rdec := repeat match goal with
  | |- context [Rlt_bool ?a ?b] => first [rewrite (Rlt_bool_true a b) by lra | rewrite (Rlt_bool_false a b) by lra]
  | |- context [Rle_bool ?a ?b] => first [rewrite (Rle_bool_true a b) by lra | rewrite (Rle_bool_false a b) by lra]
  | |- context [Req_bool ?a ?b] => first [rewrite (Req_bool_true a b) by lra | rewrite (Req_bool_false a b) by lra]
  end.

Lemma scan_skip (pts : list (vec R)) cp cur used i is c : avail cur used i = false ->
  wrap_scan pts cp cur used (i :: is) c = wrap_scan pts cp cur used is c.
Proof.
  intros A. cbn [wrap_scan]. unfold avail in A. destruct (Nat.eqb i cur || existsb (Nat.eqb i) used) eqn:E; [easy|].
  apply orb_false_elim in E. destruct E as [E1 E2]. rewrite E1, E2 in A. discriminate.
Qed.
Lemma scan_lt (pts : list (vec R)) cp cur used i is c p q : nth_error pts c = Some p -> nth_error pts i = Some q -> avail cur used i = true ->
  side (pt cp) (pt p) (pt q) < 0 -> wrap_scan pts cp cur used (i :: is) c = wrap_scan pts cp cur used is i.
Proof.
  intros Hp Hq A S. apply avail_iff in A. destruct A as [A1 A2]. cbn [wrap_scan].
  replace (Nat.eqb i cur || existsb (Nat.eqb i) used) with false.
  2: { symmetry. apply orb_false_intro; [now apply Nat.eqb_neq|]. apply not_true_iff_false. intros K. apply existsb_exists in K. destruct K as (x & Hx & E). apply Nat.eqb_eq in E. now subst. }
  rewrite (py_get_nat _ _ _ Hp), (py_get_nat _ _ _ Hq). cbn [bind]. rewrite area_side. cbv zeta.
  replace (nltb (side (pt cp) (pt p) (pt q)) (num 0)) with true; [easy|]. symmetry. rnum. now apply Rlt_bool_true.
Qed.
Lemma scan_ge (pts : list (vec R)) cp cur used i is c p q : nth_error pts c = Some p -> nth_error pts i = Some q -> avail cur used i = true ->
  1/1000000 <= side (pt cp) (pt p) (pt q) -> wrap_scan pts cp cur used (i :: is) c = wrap_scan pts cp cur used is c.
Proof.
  intros Hp Hq A S. apply avail_iff in A. destruct A as [A1 A2]. cbn [wrap_scan].
  replace (Nat.eqb i cur || existsb (Nat.eqb i) used) with false.
  2: { symmetry. apply orb_false_intro; [now apply Nat.eqb_neq|]. apply not_true_iff_false. intros K. apply existsb_exists in K. destruct K as (x & Hx & E). apply Nat.eqb_eq in E. now subst. }
  rewrite (py_get_nat _ _ _ Hp), (py_get_nat _ _ _ Hq). cbn [bind]. rewrite area_side. cbv zeta.
  replace (nltb (side (pt cp) (pt p) (pt q)) (num 0)) with false by (symmetry; rnum; apply Rlt_bool_false; lra).
  replace (nltb (side (pt cp) (pt p) (pt q)) EPSILON) with false by (symmetry; unfold EPSILON; rnum; apply Rlt_bool_false; lra). easy.
Qed.
Lemma scan_tie (pts : list (vec R)) cp cur used i is c p q : nth_error pts c = Some p -> nth_error pts i = Some q -> avail cur used i = true ->
  side (pt cp) (pt p) (pt q) = 0 -> norm2 (psub (pt p) (pt cp)) <= norm2 (psub (pt q) (pt cp)) ->
  wrap_scan pts cp cur used (i :: is) c = wrap_scan pts cp cur used is c.
Proof.
  intros Hp Hq A S D. apply avail_iff in A. destruct A as [A1 A2]. cbn [wrap_scan].
  replace (Nat.eqb i cur || existsb (Nat.eqb i) used) with false.
  2: { symmetry. apply orb_false_intro; [now apply Nat.eqb_neq|]. apply not_true_iff_false. intros K. apply existsb_exists in K. destruct K as (x & Hx & E). apply Nat.eqb_eq in E. now subst. }
  rewrite (py_get_nat _ _ _ Hp), (py_get_nat _ _ _ Hq). cbn [bind]. rewrite area_side, S. cbv zeta.
  replace (nltb 0 (num 0)) with false by (symmetry; rnum; apply Rlt_bool_false; lra).
  replace (nltb 0 EPSILON) with true by (symmetry; unfold EPSILON; rnum; apply Rlt_bool_true; lra).
  rewrite !dist2_R. cbn [bind].
  match goal with |- context [nltb ?a ?b] => replace (nltb a b) with false; [easy|] end.
  symmetry. rnum. apply Rlt_bool_false. revert D. unfold norm2, dot, psub, pt, px, py. cbn. lra.
Qed.
(** With three points on a line the wrapping method can take the nearer one
    first and then leave the farther one out. *)
Theorem C75_collinear_refuted : exists (pts vs : list (vec R)) es (p : vec R),
  (forall sorter, ConvexHull_compute sorter WRAPPING_METHOD (ConvexHull_init pts) = Ok (mkHull pts vs es false)) /\
  NoDup (map pt pts) /\ In p pts /\ ~ In p vs /\ (forall q, In q pts -> q <> p -> vx q < vx p).
Proof.
  set (pts := [mkVec 0 0 true; mkVec 1 0 true; mkVec 3 0 true; mkVec 1 2 true]).
  exists pts, [mkVec 0 0 true; mkVec 1 0 true; mkVec 1 2 true].
  eexists. exists (mkVec 3 0 true). split; [|split; [|split; [|split]]].
  - intros sorter. cbn [ConvexHull_compute]. unfold compute_wrapping_method.
    change (h_input (clear_results (ConvexHull_init pts))) with pts.
    replace (get_min_point_index pts) with (Some 0%nat).
    2: { cbn [get_min_point_index pts min_loop vx vy]. rnum. rdec. reflexivity. }
    change (Nat.ltb (List.length pts) 3) with false. cbv iota zeta.
    rewrite (py_get_nat pts 0 (mkVec 0 0 true)) by reflexivity. cbn [bind].
    replace (wrap_loop (S (List.length pts)) pts 0 0 [] [mkVec 0 0 true]) with (Ok [mkVec 0 0 true; mkVec 1 0 true; mkVec 1 2 true; mkVec 0 0 true] : res (list (vec R))).
    2: { symmetry.
      change (List.length pts) with 4%nat.
      cbn [wrap_loop]. rewrite (py_get_nat pts 0 (mkVec 0 0 true)) by reflexivity. cbn [bind].
      change (first_candidate (List.length pts) 0 []) with 1%nat. change (seq _ (List.length pts - 2)) with [2;3]%nat.
      rewrite (scan_tie pts _ 0 [] 2 _ 1 (mkVec 1 0 true) (mkVec 3 0 true)); [|reflexivity|reflexivity|reflexivity|..].
      2: { unfold side, cross, psub, pt, px, py; cbn; lra. }
      2: { unfold norm2, dot, psub, pt, px, py; cbn; lra. }
      rewrite (scan_ge pts _ 0 [] 3 _ 1 (mkVec 1 0 true) (mkVec 1 2 true)); [|reflexivity|reflexivity|reflexivity|..].
      2: { unfold side, cross, psub, pt, px, py; cbn; lra. }
      cbn [wrap_scan bind]. rewrite (py_get_nat pts 1 (mkVec 1 0 true)) by reflexivity. cbn [bind Nat.eqb app].
      change (first_candidate (List.length pts) 1 [1%nat]) with 0%nat. change (seq _ (List.length pts - 1)) with [1;2;3]%nat.
      rewrite (scan_skip pts _ 1 [1%nat] 1) by reflexivity.
      rewrite (scan_tie pts _ 1 [1%nat] 2 _ 0 (mkVec 0 0 true) (mkVec 3 0 true)); [|reflexivity|reflexivity|reflexivity|..].
      2: { unfold side, cross, psub, pt, px, py; cbn; lra. }
      2: { unfold norm2, dot, psub, pt, px, py; cbn; lra. }
      rewrite (scan_lt pts _ 1 [1%nat] 3 _ 0 (mkVec 0 0 true) (mkVec 1 2 true)); [|reflexivity|reflexivity|reflexivity|..].
      2: { unfold side, cross, psub, pt, px, py; cbn; lra. }
      cbn [wrap_scan bind]. rewrite (py_get_nat pts 3 (mkVec 1 2 true)) by reflexivity. cbn [bind Nat.eqb app].
      change (first_candidate (List.length pts) 3 [1;3]%nat) with 0%nat. change (seq _ (List.length pts - 1)) with [1;2;3]%nat.
      rewrite (scan_skip pts _ 3 [1;3]%nat 1) by reflexivity.
      rewrite (scan_ge pts _ 3 [1;3]%nat 2 _ 0 (mkVec 0 0 true) (mkVec 3 0 true)); [|reflexivity|reflexivity|reflexivity|..].
      2: { unfold side, cross, psub, pt, px, py; cbn; lra. }
      rewrite (scan_skip pts _ 3 [1;3]%nat 3) by reflexivity.
      cbn [wrap_scan bind]. rewrite (py_get_nat pts 0 (mkVec 0 0 true)) by reflexivity. reflexivity. }
    cbn [bind]. rewrite build_edges_R. cbn [bind]. reflexivity.
  - unfold pts, pt; cbn. repeat constructor; cbn; intros K; repeat (destruct K as [K|K]; [injection K; lra|]); exact K.
  - cbn; auto.
  - cbn. intros K; repeat (destruct K as [K|K]; [injection K; lra|]); exact K.
  - unfold pts. cbn. intros q K Q; repeat (destruct K as [<-|K]; [cbn; first [lra|now destruct Q]|]); easy.
Qed.

(** ** C78 *)
Lemma list2set_snoc (l : list (vec R)) v : list2set (l ++ [v]) = if vec_in v (list2set l) then list2set l else list2set l ++ [v].
Proof. unfold list2set. now rewrite fold_left_app. Qed.
Lemma vec_in_iff (v : vec R) l : vec_in v l = true <-> In (pt v) (map pt l).
Proof.
  unfold vec_in. rewrite existsb_exists, in_map_iff. split; intros (w & A & B); exists w.
  - apply veq_iff in B. auto.
  - split; [easy|]. now apply veq_iff.
Qed.
Lemma NoDup_snoc {A} (l : list A) a : NoDup l -> ~ In a l -> NoDup (l ++ [a]).
Proof. intros H N. apply (Permutation_NoDup (Permutation_app_comm [a] l)). now constructor. Qed.
Theorem C78_list2set_R : forall (l : list (vec R)),
  NoDup (map pt (list2set l)) /\ incl (list2set l) l /\
  (forall p, In p (map pt (list2set l)) <-> In p (map pt l)) /\
  (forall v, In (pt v) (map pt l) -> list2set (l ++ [v]) = list2set l) /\
  (forall v, ~ In (pt v) (map pt l) -> list2set (l ++ [v]) = list2set l ++ [v]).
Proof.
  assert (G : forall l : list (vec R), NoDup (map pt (list2set l)) /\ incl (list2set l) l /\ (forall p, In p (map pt (list2set l)) <-> In p (map pt l))).
  { intros l. induction l as [|v l IH] using rev_ind.
    - cbn. split; [constructor|]. split; [easy|tauto].
    - destruct IH as (ND & IN & EQ). rewrite list2set_snoc. destruct (vec_in v (list2set l)) eqn:E.
      + apply vec_in_iff in E. split; [easy|]. split; [intros x Hx; apply in_or_app; auto|].
        intros p. rewrite map_app, in_app_iff, EQ. cbn. split; [tauto|]. intros [H|[<-|[]]]; [easy|now apply EQ].
      + assert (N : ~ In (pt v) (map pt (list2set l))) by (rewrite <- vec_in_iff; congruence).
        rewrite map_app. split; [now apply NoDup_snoc|]. split.
        * intros x Hx. apply in_app_iff in Hx. apply in_or_app. destruct Hx as [Hx|Hx]; auto.
        * intros p. rewrite !in_app_iff, map_app, in_app_iff, EQ. tauto. }
  intros l. destruct (G l) as (ND & IN & EQ). split; [easy|]. split; [easy|]. split; [easy|].
  split; intros v Hv; rewrite list2set_snoc.
  - now rewrite (proj2 (vec_in_iff v (list2set l))) by now apply EQ.
  - destruct (vec_in v (list2set l)) eqn:E; [|easy]. apply vec_in_iff, EQ in E. easy.
Qed.
Example C78_nonvacuous : list2set [mkVec 1 0 true; mkVec 2 0 true; mkVec 1 0 true; mkVec 0 0 true] = [mkVec 1 0 true; mkVec 2 0 true; mkVec 0 0 true].
Proof.
  unfold list2set, vec_in. cbn [fold_left existsb app]. unfold Vector2D_eq. cbn [vx vy]. rnum.
  repeat (rdec; cbn [andb orb existsb app vx vy]). reflexivity.
Qed.

(** ** C76 *)
Lemma py_get_in {A} (l : list A) i a : py_get l i = Ok a -> In a l.
Proof. unfold py_get. destruct (py_index l i); [|discriminate]. destruct (nth_error l n) eqn:E; [|discriminate]. intros [= <-]. now apply nth_error_In in E. Qed.
Lemma list_set_incl {A} (l : list A) i a : incl (list_set l i a) (a :: l).
Proof.
  revert i. induction l as [|b l IH]; intros [|i]; cbn; try easy.
  - intros x [<-|H]; cbn; auto.
  - intros x [<-|H]; cbn; [auto|]. specialize (IH i x H). cbn in IH. tauto.
Qed.
Lemma py_set_incl {A} (l : list A) i a l' : py_set l i a = Ok l' -> In a l -> incl l' l.
Proof. unfold py_set. destruct (py_index l i); [|discriminate]. intros [= <-] Ha x Hx. apply list_set_incl in Hx. destruct Hx as [<-|Hx]; auto. Qed.
Lemma list_set_length {A} (l : list A) i a : List.length (list_set l i a) = List.length l.
Proof. revert i. induction l; intros [|i]; cbn; auto. Qed.
Lemma bind_ok {A B} (r : res A) (f : A -> res B) b : bind r f = Ok b -> exists a, r = Ok a /\ f a = Ok b.
Proof. destruct r as [a|e]; cbn; [|discriminate]. intros E. now exists a. Qed.
Section C76.
  Context {T : Type} `{Num T}.
  Lemma swap_incl (l : list (vec T)) i j a b l1 l2 : py_get l i = Ok a -> py_get l j = Ok b -> py_set l i b = Ok l1 -> py_set l1 j a = Ok l2 ->
    forall x, In x l2 -> In x l.
  Proof.
    intros Ha Hb H1 H2 x Hx. apply py_get_in in Ha, Hb. unfold py_set in H2. destruct (py_index l1 j); [|discriminate]. injection H2 as <-.
    apply list_set_incl in Hx. destruct Hx as [<-|Hx]; [easy|]. now apply (py_set_incl _ _ _ _ H1 Hb).
  Qed.
  Lemma graham_loop_incl is : forall (l : list (vec T)) top l' top', graham_loop is l top = Ok (l', top') -> incl l' l.
  Proof.
    induction is as [|i is IH]; intros l top l' top'; cbn [graham_loop].
    - intros [= <- <-]. apply incl_refl.
    - intros E. apply bind_ok in E as (p & E1 & E). apply bind_ok in E as (top1 & E2 & E). apply bind_ok in E as (tmp & E3 & E).
      apply bind_ok in E as (vi & E4 & E). apply bind_ok in E as (l1 & E5 & E). apply bind_ok in E as (l2 & E6 & E).
      intros x Hx. apply (IH _ _ _ _ E) in Hx. now apply (swap_incl _ _ _ _ _ _ _ E3 E4 E5 E6).
  Qed.
  Lemma firstn_incl {A} n (l : list A) : incl (firstn n l) l.
  Proof. revert n. induction l; intros [|n] x; cbn; try easy. intros [<-|Hx]; auto. right. now apply (IHl n). Qed.
  Definition is_sorter (sorter : list (vec T) -> res (list (vec T))) : Prop := forall l l', sorter l = Ok l' -> Permutation l l'.

  (** After a Graham scan of three or more points the hull's vertex list and
      its input list are one list: the input has lost the points the scan
      dropped, whatever is added to the input shows up as a vertex, and from
      then on every later compute, by any method and after any other calls,
      leaves both empty. *)
  Theorem C76_graham_destroys : forall sorter (h h' : hull T), is_sorter sorter -> h_alias h = false -> (3 <= List.length (h_input h))%nat ->
    ConvexHull_compute sorter GRAHAN_SCAN h = Ok h' ->
    hull_vertices h' = h_input h' /\ incl (h_input h') (h_input h) /\
    (forall ps, hull_vertices (ConvexHull_add_points h' ps) = hull_vertices h' ++ ps) /\
    (forall cs m h1, hull_run sorter h' cs = Ok h1 ->
       exists h2, ConvexHull_compute sorter m h1 = Ok h2 /\ h_input h2 = [] /\ hull_vertices h2 = [] /\ h_edges h2 = []).
  Proof.
    intros sorter h h' SO HA HL E.
    assert (AL : h_alias h' = true /\ incl (h_input h') (h_input h)).
    { cbn [ConvexHull_compute] in E. unfold compute_graham_scan in E. unfold clear_results in E at 1 2 3 4 5 6 7 8. rewrite HA in E. cbn [h_input] in E.
      destruct (get_min_point_index (h_input h)) as [mi|] eqn:EM; [|destruct (h_input h); [cbn in HL; lia|discriminate]].
      assert (EL : Nat.ltb (List.length (h_input h)) 3 = false) by (apply Nat.ltb_ge; lia). rewrite EL in E.
      apply bind_ok in E as (p0 & E1 & E). apply bind_ok in E as (pm & E2 & E). apply bind_ok in E as (l1 & E3 & E).
      apply bind_ok in E as (l2 & E4 & E). apply bind_ok in E as (l3 & E5 & E). apply bind_ok in E as ([l4 top] & E6 & E).
      apply bind_ok in E as (es & E7 & E). apply bind_ok in E as (f & E8 & E). apply bind_ok in E as (la & E9 & E). injection E as <-. cbn [h_alias h_input].
      split; [easy|]. intros x Hx. apply firstn_incl in Hx. apply (graham_loop_incl _ _ _ _ _ E6) in Hx.
      apply (Permutation_in x (Permutation_sym (SO _ _ E5))) in Hx. now apply (swap_incl _ _ _ _ _ _ _ E1 E2 E3 E4). }
    destruct AL as [AL IN]. split; [unfold hull_vertices; now rewrite AL|]. split; [easy|]. split; [intros ps; unfold hull_vertices, ConvexHull_add_points; cbn; now rewrite AL|].
    assert (CM : forall m (k : hull T), h_alias k = true -> ConvexHull_compute sorter m k = Ok (mkHull [] [] [] true)).
    { intros m k Hk. destruct m; cbn [ConvexHull_compute]; unfold compute_direct_method, compute_wrapping_method, compute_graham_scan, clear_results; rewrite Hk; reflexivity. }
    intros cs m h1 RUN. exists (mkHull [] [] [] true). split; [|easy]. apply CM. clear E IN. revert h' AL RUN.
    induction cs as [|c cs IH]; intros k AK RUN; cbn [hull_run] in RUN; [now injection RUN as <-|].
    apply bind_ok in RUN as (k' & E & RUN). assert (AK' : h_alias k' = true).
    { destruct c as [ps| | |mm]; cbn [hull_step] in E; [injection E as <-; easy| injection E as <-; unfold ConvexHull_clear, clear_results; now rewrite AK | injection E as <-; unfold clear_results; now rewrite AK|].
      rewrite (CM mm k AK) in E. now injection E as <-. }
    now apply (IH k' AK' RUN).
  Qed.

  (** CPython's sort (the model of it) only permutes. *)
  Lemma bin_sort_perm (lt : vec T -> vec T -> res bool) rest : forall sorted l', bin_sort lt sorted rest = Ok l' -> Permutation (sorted ++ rest) l'.
  Proof.
    induction rest as [|x rest IH]; intros sorted l'; cbn [bin_sort]; [intros [= <-]; now rewrite app_nil_r|].
    intros E. apply bind_ok in E as (pos & _ & E). apply IH in E. rewrite <- E.
    rewrite <- (firstn_skipn pos sorted) at 1. rewrite <- !app_assoc. apply Permutation_app_head. cbn [app].
    rewrite <- Permutation_middle. apply perm_skip. reflexivity.
  Qed.
  Lemma run_from_app (lt : vec T -> vec T -> res bool) b l : forall prev run rest, run_from lt b prev l = Ok (run, rest) -> l = run ++ rest.
  Proof.
    induction l as [|x l IH]; intros prev run rest; cbn [run_from]; [intros [= <- <-]; easy|].
    intros E. apply bind_ok in E as (c & _ & E). destruct (Bool.eqb c b).
    - apply bind_ok in E as ([r1 r2] & E1 & E). injection E as <- <-. cbn. now rewrite <- (IH _ _ _ E1).
    - injection E as <- <-. easy.
  Qed.
  Lemma py_sort_small_perm (lt : vec T -> vec T -> res bool) : is_sorter (py_sort_small lt).
  Proof.
    intros l l'. destruct l as [|x [|y l]]; cbn [py_sort_small]; [intros [= <-]; constructor|intros [= <-]; reflexivity|].
    intros E. apply bind_ok in E as (b & _ & E). apply bind_ok in E as ([run rest] & E1 & E). apply run_from_app in E1. apply bin_sort_perm in E. rewrite <- E, E1.
    destruct b; [|reflexivity]. rewrite <- Permutation_rev. reflexivity.
  Qed.
End C76.

(** ** C77 *)
(** The point a vector of doubles stands for. *)
Definition fpt (v : vec F) : point := (B2R (vx v), B2R (vy v)).
Definition fv (x y : Z) : vec F := mkVec (F_of_Z x) (F_of_Z y) true.
Lemma fpt_fv x y : (Z.abs x < 2 ^ 53)%Z -> (Z.abs y < 2 ^ 53)%Z -> fpt (fv x y) = (IZR x, IZR y).
Proof. intros Hx Hy. unfold fpt, fv. cbn [vx vy]. now rewrite (proj1 (F_of_Z_exact x Hx)), (proj1 (F_of_Z_exact y Hy)). Qed.
Definition ffin (v : vec F) : bool := is_finite (vx v) && is_finite (vy v).
Lemma veq_F L (v w : vec F) : ffin v = true -> ffin w = true -> (@Vector2D_eq F (NumF L) v w = true <-> fpt v = fpt w).
Proof.
  unfold ffin, Vector2D_eq, fpt. intros Hv Hw. apply andb_true_iff in Hv, Hw. destruct Hv, Hw.
  change (@neqb F (NumF L)) with (@Beqb 53 1024). rewrite !eqb_F by easy. rewrite andb_true_iff, !Req_bool_iff.
  split; [intros [-> ->]; easy|intros [= -> ->]; easy].
Qed.
(** [p] is the only farthest point of [l] in some direction: a vertex of the
    convex hull. *)
Definition extreme_point (l : list point) (p : point) : Prop :=
  In p l /\ exists u, forall q, In q l -> q <> p -> dot u q < dot u p.
(** [p] is a proper average of three points of [l], not a vertex of the hull. *)
Definition inner_point (l : list point) (p : point) : Prop :=
  exists a b c x y z, In a l /\ In b l /\ In c l /\ side a b c > 0 /\ 0 < x /\ 0 < y /\ 0 < z /\ x + y + z = 1 /\
    p = (x * px a + y * px b + z * px c, x * py a + y * py b + z * py c).

Theorem C77_graham_misses_F : exists pts : list (vec F), Forall (fun v => ffin v = true) pts /\ forall L, exists h p,
  @ConvexHull_compute F (NumF L) (@py_sort_small F (@angle_lt F (NumF L))) GRAHAN_SCAN (ConvexHull_init pts) = Ok h /\
  extreme_point (map fpt pts) p /\ ~ In p (map fpt (hull_vertices h)).
Proof.
  exists [fv 2 0; fv 3 (-2); fv (-1) (-2); fv (-2) (-3)]. split; [repeat constructor|]. intros L.
  set (r := ConvexHull_compute _ _ _).
  assert (E : match r with Ok h => forallb (fun v => ffin v && negb (@Vector2D_eq F (NumF L) v (fv (-1) (-2)))) (hull_vertices h) | _ => false end = true) by (subst r; vm_compute; reflexivity).
  destruct r as [h|]; [|discriminate]. exists h, (IZR (-1), IZR (-2)). split; [easy|]. split.
  - cbn [map]. rewrite !fpt_fv by (cbn; lia). split; [cbn; auto|]. exists (-3, 4).
    intros q [<-|[<-|[<-|[<-|[]]]]] N; unfold dot, px, py; cbn [fst snd]; try lra. now destruct N.
  - intros K. apply in_map_iff in K. destruct K as (v & EV & Hv). rewrite forallb_forall in E. specialize (E v Hv). apply andb_true_iff in E. destruct E as [E1 E2].
    apply negb_true_iff in E2. rewrite <- (fpt_fv (-1) (-2)) in EV by (cbn; lia). rewrite <- (veq_F L) in EV by (easy || reflexivity). congruence.
Qed.
Theorem C77_graham_keeps_inner_F : exists pts : list (vec F), Forall (fun v => ffin v = true) pts /\ forall L, exists h p,
  @ConvexHull_compute F (NumF L) (@py_sort_small F (@angle_lt F (NumF L))) GRAHAN_SCAN (ConvexHull_init pts) = Ok h /\
  inner_point (map fpt pts) p /\ In p (map fpt (hull_vertices h)).
Proof.
  exists [fv (-2) (-2); fv 1 2; fv 0 (-1); fv 1 (-3)]. split; [repeat constructor|]. intros L.
  set (r := ConvexHull_compute _ _ _).
  assert (E : match r with Ok h => existsb (fun v => ffin v && @Vector2D_eq F (NumF L) v (fv 0 (-1))) (hull_vertices h) | _ => false end = true) by (subst r; vm_compute; reflexivity).
  destruct r as [h|]; [|discriminate]. exists h, (IZR 0, IZR (-1)). split; [easy|]. split.
  - cbn [map]. rewrite !fpt_fv by (cbn; lia). exists (IZR (-2), IZR (-2)), (IZR 1, IZR (-3)), (IZR 1, IZR 2), (1/3), (1/3), (1/3).
    split; [cbn; auto|]. split; [cbn; auto|]. split; [cbn; auto|]. unfold side, cross, psub, px, py; cbn [fst snd]. repeat split; try lra. f_equal; lra.
  - apply existsb_exists in E. destruct E as (v & Hv & E). apply andb_true_iff in E. destruct E as [E1 E2].
    apply veq_F in E2; [|easy|reflexivity]. rewrite fpt_fv in E2 by (cbn; lia). apply in_map_iff. now exists v.
Qed.
(** Three copies of one point: the scan runs off the front of the list. *)
Theorem C77_graham_raises_R : forall p : vec R,
  ConvexHull_compute (py_sort_small angle_lt) GRAHAN_SCAN (ConvexHull_init [p; p; p]) = Raise IndexError.
Proof.
  intros p. assert (A : hull_is_clockwise p p p = Ok false).
  { unfold hull_is_clockwise. rewrite area_side. replace (side (pt p) (pt p) (pt p)) with 0 by (unfold side, cross, psub, px, py; cbn [fst snd]; ring).
    cbv zeta. replace (nltb 0 (num 0)) with false by (symmetry; rnum; apply Rlt_bool_false; lra).
    replace (nltb 0 EPSILON) with true by (symmetry; unfold EPSILON; rnum; apply Rlt_bool_true; lra).
    rewrite !dist2_R. cbn [bind]. f_equal. rnum. apply Rlt_bool_false. lra. }
  assert (SO : py_sort_small angle_lt [p; p; p] = Ok [p; p; p]).
  { assert (exists b : bool, angle_lt p p = Ok b) as [b EB].
    { unfold angle_lt, angle_sort_predicate. rewrite !dist2_R. cbn [bind]. repeat match goal with |- context [if ?c then _ else _] => destruct c end; cbn [bind]; eauto. }
    destruct b; cbn [py_sort_small]; rewrite EB; cbn [bind run_from]; rewrite EB; cbn; rewrite ?EB; reflexivity. }
  cbn [ConvexHull_compute]. unfold compute_graham_scan. change (h_input (clear_results (ConvexHull_init [p; p; p]))) with [p; p; p].
  assert (EM : get_min_point_index [p; p; p] = Some 0%nat).
  { cbn [get_min_point_index min_loop]. assert (E : (vx p >? vx p)%num || (vx p =? vx p)%num && (vy p >? vy p)%num = false).
    { rnum. rewrite !Rlt_bool_false by lra. now rewrite andb_false_r. }
    now rewrite !E. }
  rewrite EM. cbn [List.length Nat.ltb Nat.leb py_get py_index py_set list_set bind nth_error].
  change (py_get [p; p; p] 0) with (Ok p : res (vec R)). change (py_get [p; p; p] (Z.of_nat 0)) with (Ok p : res (vec R)). cbn [bind].
  change (py_set [p; p; p] 0 p) with (Ok [p; p; p] : res (list (vec R))). cbn [bind].
  change (py_set [p; p; p] (Z.of_nat 0) p) with (Ok [p; p; p] : res (list (vec R))). cbn [bind]. rewrite SO. cbn [bind].
  change (seq 2 (3 - 2)) with [2%nat]. cbn [graham_loop]. change (py_get [p; p; p] (Z.of_nat 2)) with (Ok p : res (vec R)). cbn [bind].
  change (2 * List.length [p; p; p] + 3)%nat with 9%nat.
  assert (STEP : forall f t, (-2 <= t <= 2)%Z -> graham_pop (S f) [p; p; p] p t = graham_pop f [p; p; p] p (t - 1)).
  { intros f t Ht. cbn [graham_pop]. assert (HH : (t = -2 \/ t = -1 \/ t = 0 \/ t = 1 \/ t = 2)%Z) by lia.
    replace (py_get [p; p; p] (t - 1)) with (Ok p : res (vec R)) by (destruct HH as [->|[->|[->|[->| ->]]]]; reflexivity).
    replace (py_get [p; p; p] t) with (Ok p : res (vec R)) by (destruct HH as [->|[->|[->|[->| ->]]]]; reflexivity).
    cbn [bind]. now rewrite A. }
  rewrite !STEP by lia. reflexivity.
Qed.
Example C77_nonvacuous : exists pts : list point, extreme_point pts (2, 0) /\ inner_point pts (1/2, 1/2).
Proof.
  exists [(0, 0); (2, 0); (0, 2); (1/2, 1/2)]. split.
  - split; [cbn; auto|]. exists (1, 0). intros q [<-|[<-|[<-|[<-|[]]]]] N; unfold dot, px, py; cbn [fst snd]; try lra. now destruct N.
  - exists (0, 0), (2, 0), (0, 2), (1/2), (1/4), (1/4). cbn. unfold side, cross, psub, px, py; cbn [fst snd]. repeat split; auto; try lra. f_equal; lra.
Qed.
Example C76_nonvacuous : forall L, exists h', is_sorter (@py_sort_small F (@angle_lt F (NumF L))) /\
  (3 <= List.length [fv 2 0; fv 3 (-2); fv (-1) (-2); fv (-2) (-3)])%nat /\
  @ConvexHull_compute F (NumF L) (@py_sort_small F (@angle_lt F (NumF L))) GRAHAN_SCAN (ConvexHull_init [fv 2 0; fv 3 (-2); fv (-1) (-2); fv (-2) (-3)]) = Ok h' /\
  List.length (hull_vertices h') = 3%nat.
Proof.
  intros L. set (r := ConvexHull_compute _ _ _).
  assert (E : match r with Ok h => Nat.eqb (List.length (hull_vertices h)) 3 | _ => false end = true) by (subst r; vm_compute; reflexivity).
  destruct r as [h|]; [|discriminate]. exists h. split; [apply py_sort_small_perm|]. split; [cbn; lia|]. split; [easy|]. now apply Nat.eqb_eq.
Qed.
