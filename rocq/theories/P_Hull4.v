(** * P_Hull4: more about the direct method and the Graham scan (C76, C102) *)
From Coq Require Import ZArith List Bool String Reals Lra Lia Psatz Permutation Classical.
From Flocq Require Import Core.
From Verif Require Import Base Types NumR NumF R_Tac Spec Spec2 Abs M_Vector M_Triangle M_Segment M_Polygon M_Hull
  P_Vector L_Seg P_Segment P_Polygon P_Polygon2 P_Polygon3 P_Hull P_Hull2 P_Hull3.
Import ListNotations.
Local Open Scope R_scope.

(** ** C102 for every list of points *)
Section DirectAny.
  Variable pts : list (vec R).
  Let n := List.length pts.
  (** what one pair of indices contributes *)
  Definition pair_edges (ij : nat * nat) : list (vec R * vec R) :=
    match nth_error pts (fst ij), nth_error pts (snd ij) with
    | Some a, Some b =>
        let '(valid, lv) := direct_scan a (Vector2D_sub b a) (fst ij) (snd ij) 0 pts 0 in
        if valid then [if Rlt_bool lv 0 then (a, b) else (b, a)] else []
    | _, _ => []
    end.
  Lemma py_get_some {A} (l : list A) i a : nth_error l i = Some a -> py_get l (Z.of_nat i) = Ok a.
  Proof.
    intros E. unfold py_get, py_index. assert (i < List.length l)%nat by (apply nth_error_Some; congruence).
    replace (Z.of_nat i <? 0)%Z with false by (symmetry; apply Z.ltb_ge; lia).
    replace (0 <=? Z.of_nat i)%Z with true by (symmetry; apply Z.leb_le; lia).
    replace (Z.of_nat i <? Z.of_nat (List.length l))%Z with true by (symmetry; apply Z.ltb_lt; lia).
    cbn [andb]. now rewrite Nat2Z.id, E.
  Qed.
  Lemma direct_any L : (forall i j, In (i, j) L -> (i < j)%nat /\ (j < n)%nat) -> forall vs es, exists VS,
    fold_left (direct_step pts) L (Ok (vs, es)) = Ok (vs ++ VS, es ++ segs (flat_map pair_edges L)) /\
    (forall v, In v VS <-> exists e, In e (flat_map pair_edges L) /\ (v = fst e \/ v = snd e)).
  Proof.
    induction L as [|[i j] L IH]; intros HL vs es.
    - exists []. cbn. rewrite !app_nil_r. split; [easy|]. intros v. split; [easy|]. intros (e & [] & _).
    - destruct (HL i j) as [H1 H2]; [cbn; auto|].
      destruct (nth_error pts i) as [a|] eqn:Ea; [|apply nth_error_None in Ea; fold n in Ea; lia].
      destruct (nth_error pts j) as [b|] eqn:Eb; [|apply nth_error_None in Eb; fold n in Eb; lia].
      cbn [fold_left flat_map]. cbn [direct_step bind]. rewrite (py_get_some _ _ _ Ea), (py_get_some _ _ _ Eb). cbn [bind].
      assert (EP : pair_edges (i, j) = let '(valid, lv) := direct_scan a (Vector2D_sub b a) i j 0 pts 0 in
                     if valid then [if Rlt_bool lv 0 then (a, b) else (b, a)] else []).
      { unfold pair_edges. cbn [fst snd]. now rewrite Ea, Eb. }
      rewrite EP. change (num 0 : R) with 0. destruct (direct_scan a (Vector2D_sub b a) i j 0 pts 0) as [[|] lv].
      + destruct (IH (fun i j H => HL i j (or_intror H)) (vs ++ [a; b]) (es ++ [if nltb lv 0 then Segment2D_of_points a b else Segment2D_of_points b a])) as (VS & E1 & E2).
        rewrite E1. exists ([a; b] ++ VS). rewrite !app_assoc. split.
        * do 2 f_equal. unfold segs. rewrite map_app. cbn [map]. rewrite <- !app_assoc. do 2 f_equal. rnum. now destruct (Rlt_bool lv 0).
        * intros v. rewrite in_app_iff, E2. cbn [app In]. split.
          -- intros [[<-|[<-|[]]]|(e & He & Hv)]; [| |exists e; auto]; (eexists; split; [left; reflexivity|]); destruct (Rlt_bool lv 0); cbn; auto.
          -- intros (e & [<-|He] & Hv); [|right; exists e; auto]. left. destruct (Rlt_bool lv 0); cbn in Hv; destruct Hv as [->| ->]; auto.
      + destruct (IH (fun i j H => HL i j (or_intror H)) vs es) as (VS & E1 & E2). exists VS. split; easy.
  Qed.
  Lemma scan_valid a b i j l : forall k last lv, direct_scan a (Vector2D_sub b a) i j k l last = (true, lv) ->
    forall p, In p (others i j k l) -> ~ (Rabs (side (pt a) (pt b) (pt p)) < 1/1000000 /\ norm2 (psub (pt p) (pt a)) < norm2 (psub (pt b) (pt a))).
  Proof.
    induction l as [|q l IH]; intros k last lv; [easy|]. cbn [direct_scan others]. destruct (Nat.eqb k i || Nat.eqb k j); [apply IH|].
    rewrite outer_side. cbv zeta. unfold EPSILON. rnum.
    destruct (Rlt_bool_spec (Rabs (side (pt a) (pt b) (pt q))) (1/1000000)) as [S1|S1]; cbn [andb].
    - match goal with |- (if Rlt_bool ?u ?v then _ else _) = _ -> _ => destruct (Rlt_bool_spec u v) as [S2|S2] end; [discriminate|].
      destruct (Rlt_bool _ 0); [discriminate|]. intros E p [<-|Hp]; [|now apply (IH _ _ _ E)]. intros [_ K].
      revert S2 K. unfold Vector2D_r2, Vector2D_sub, V, norm2, psub, pt, px, py. rnum. cbn. lra.
    - destruct (Rlt_bool _ 0); [discriminate|]. intros E p [<-|Hp]; [|now apply (IH _ _ _ E)]. lra.
  Qed.
End DirectAny.
(** [c] lies strictly between the two different points [a] and [b]. *)
Definition strictly_between (a b c : point) : Prop :=
  a <> b /\ exists t, 0 < t < 1 /\ c = (px a + t * (px b - px a), py a + t * (py b - py a)).
Lemma between_small a b c : strictly_between a b c -> side a b c = 0 /\ norm2 (psub c a) < norm2 (psub b a).
Proof.
  intros (Hab & t & Ht & ->). split; [unfold side, cross, psub, px, py; cbn; ring|].
  assert (N : 0 < norm2 (psub b a)). { destruct (norm2_nonneg (psub b a)) as [K|K]; [easy|]. exfalso. apply Hab. symmetry. now apply psub_zero. }
  replace (norm2 (psub (px a + t * (px b - px a), py a + t * (py b - py a)) a)) with (t * t * norm2 (psub b a)) by (unfold norm2, dot, psub, px, py; cbn; ring).
  assert (t * t < 1) by nra. rewrite <- (Rmult_1_l (norm2 (psub b a))) at 2. now apply Rmult_lt_compat_r.
Qed.
Lemma between_sym a b c : strictly_between a b c -> strictly_between b a c.
Proof.
  intros (Hab & t & Ht & ->). split; [congruence|]. exists (1 - t). split; [lra|]. apply point_eq; cbn; ring.
Qed.
(** Whatever the points (repeated, collinear, ...) and whatever order the sort
    produces, the direct method does not raise, its vertices are input points,
    and every side it reports joins two of the input points without any other
    input point strictly between them; every vertex is an end of a side. *)
Theorem C102_direct_any_R : forall (pts : list (vec R)) sorter,
  (forall l, exists l', sorter l = Ok l' /\ Permutation l l') ->
  exists vs es, ConvexHull_compute sorter DIRECT_METHOD (ConvexHull_init pts) = Ok (mkHull pts vs es false) /\
    incl vs pts /\
    (forall e, In e es -> exists i j a b, i <> j /\ nth_error pts i = Some a /\ nth_error pts j = Some b /\
       e = Segment2D_of_points a b /\
       forall k c, k <> i -> k <> j -> nth_error pts k = Some c -> ~ strictly_between (pt a) (pt b) (pt c)) /\
    (forall v, In v vs -> exists e, In e es /\ (pt v = pt (s_origin e) \/ pt v = pt (s_terminal e))).
Proof.
  intros pts sorter SO. cbn [ConvexHull_compute]. unfold compute_direct_method. change (h_input (clear_results (ConvexHull_init pts))) with pts.
  destruct (Nat.ltb_spec (List.length pts) 3) as [Hn|Hn].
  { exists [], []. split; [easy|]. split; [easy|]. split; easy. }
  destruct (direct_any pts (direct_pairs (List.length pts)) (fun i j H => proj1 (direct_pairs_in pts Hn i j) H) [] []) as (VS & E1 & E2).
  rewrite E1. cbn [bind app]. set (E := flat_map (pair_edges pts) (direct_pairs (List.length pts))) in *.
  assert (EE : forall a b, In (a, b) E -> exists i j, i <> j /\ nth_error pts i = Some a /\ nth_error pts j = Some b /\
       forall k c, k <> i -> k <> j -> nth_error pts k = Some c -> ~ strictly_between (pt a) (pt b) (pt c)).
  { intros a b H. apply in_flat_map in H. destruct H as ([i j] & Hij & H). apply (direct_pairs_in pts Hn) in Hij. unfold pair_edges in H. cbn [fst snd] in H.
    destruct (nth_error pts i) as [a'|] eqn:Ea; [|easy]. destruct (nth_error pts j) as [b'|] eqn:Eb; [|easy].
    destruct (direct_scan a' (Vector2D_sub b' a') i j 0 pts 0) as [[|] lv] eqn:ES; [|easy].
    assert (NB : forall k c, k <> i -> k <> j -> nth_error pts k = Some c -> ~ strictly_between (pt a') (pt b') (pt c)).
    { intros k c Ki Kj Ec B. apply between_small in B as [B1 B2]. apply (scan_valid a' b' i j pts 0 0 lv ES c); [apply in_others; now exists k|].
      rewrite B1, Rabs_R0. split; [lra|easy]. }
    destruct (Rlt_bool lv 0); destruct H as [[= <- <-]|[]]; [exists i, j|exists j, i]; (split; [lia|]); (split; [easy|]); (split; [easy|]); auto.
    intros k c Ki Kj Ec B. apply (NB k c Kj Ki Ec). now apply between_sym. }
  assert (ES : forall e, In e (segs E) -> exists i j a b, i <> j /\ nth_error pts i = Some a /\ nth_error pts j = Some b /\
       e = Segment2D_of_points a b /\
       forall k c, k <> i -> k <> j -> nth_error pts k = Some c -> ~ strictly_between (pt a) (pt b) (pt c)).
  { intros e He. apply in_map_iff in He. destruct He as ([a b] & <- & He). destruct (EE a b He) as (i & j & H1 & H2 & H3 & H4). exists i, j, a, b. auto. }
  assert (EV : forall v, In v VS -> exists e, In e (segs E) /\ (pt v = pt (s_origin e) \/ pt v = pt (s_terminal e))).
  { intros v Hv. apply E2 in Hv. destruct Hv as ([a b] & He & Hv). exists (Segment2D_of_points a b). split; [now apply (in_map (fun e => Segment2D_of_points (fst e) (snd e)) E (a, b))|].
    destruct Hv as [-> | ->]; cbn; auto. }
  assert (EI : incl VS pts).
  { intros v Hv. apply E2 in Hv. destruct Hv as ([a b] & He & Hv). destruct (EE a b He) as (i & j & _ & H2 & H3 & _). apply nth_error_In in H2, H3. destruct Hv as [-> | ->]; easy. }
  destruct (SO VS) as (VS' & S1 & S2).
  assert (SUB : incl (list2set VS') VS). { intros v Hv. apply (Permutation_in v (Permutation_sym S2)). now apply (proj1 (proj2 (C78_list2set_R VS'))). }
  destruct VS as [|v0 VS0]; [exists [], (segs E); split; [easy|]; split; [easy|]; split; [exact ES|easy]|].
  rewrite S1. cbn [bind]. exists (list2set VS'), (segs E). split; [easy|]. split; [intros v Hv; apply EI, SUB, Hv|]. split; [exact ES|]. intros v Hv. apply EV, SUB, Hv.
Qed.
Example C102_direct_any_nonvacuous : (forall l, exists l', py_sort_small angle_lt l = Ok l' /\ @Permutation (vec R) l l') /\
  strictly_between (0, 0) (2, 0) (1, 0).
Proof. split; [apply py_sort_total|]. split; [intros [= K]; lra|]. exists (1/2). split; [lra|]. apply point_eq; cbn; lra. Qed.

(** With collinear points the "sides" need not be sides: a point on the line
    beyond the pair makes the method forget which side it has seen. *)
Theorem C102_collinear_refuted : exists pts : list (vec R), NoDup (map pt pts) /\ (3 <= List.length pts)%nat /\
  forall sorter, (forall l, exists l', sorter l = Ok l' /\ Permutation l l') ->
  exists h a b c d, ConvexHull_compute sorter DIRECT_METHOD (ConvexHull_init pts) = Ok h /\
    In a pts /\ In b pts /\ In c pts /\ In d pts /\
    (In (Segment2D_of_points a b) (h_edges h) \/ In (Segment2D_of_points b a) (h_edges h)) /\
    side (pt a) (pt b) (pt c) > 0 /\ side (pt a) (pt b) (pt d) < 0.
Proof.
  set (A := mkVec 0 0 true : vec R). set (B := mkVec 1 0 true : vec R). set (C := mkVec 0 1 true : vec R). set (D := mkVec 2 0 true : vec R). set (E := mkVec 0 (-1) true : vec R).
  exists [A; B; C; D; E]. split; [|split; [cbn; lia|]].
  { repeat constructor; cbn; unfold pt; cbn; intros K; repeat destruct K as [K|K]; try easy; injection K; intros; lra. }
  intros sorter SO. set (pts := [A; B; C; D; E]). assert (Hn : (3 <= List.length pts)%nat) by (cbn; lia).
  destruct (direct_any pts (direct_pairs (List.length pts)) (fun i j H => proj1 (direct_pairs_in pts Hn i j) H) [] []) as (VS & E1 & _).
  destruct (SO VS) as (VS' & S1 & _).
  assert (IN : In (A, B) (flat_map (pair_edges pts) (direct_pairs (List.length pts)))).
  { apply in_flat_map. exists (0%nat, 1%nat). split; [cbn; auto|]. unfold pair_edges. cbn [fst snd nth_error pts].
    cbn [direct_scan pts Nat.eqb orb]. rewrite !outer_side. unfold EPSILON, Vector2D_r2, Vector2D_sub, V, side, cross, psub, pt, px, py, A, B, C, D, E. rnum. cbn [vx vy fst snd].
    replace (Rabs ((1 - 0) * (1 - 0) - (0 - 0) * (0 - 0))) with 1 by (symmetry; rewrite Rabs_pos_eq; lra).
    replace (Rabs ((1 - 0) * (0 - 0) - (0 - 0) * (2 - 0))) with 0 by (symmetry; rewrite Rabs_pos_eq; lra).
    replace (Rabs ((1 - 0) * (-1 - 0) - (0 - 0) * (0 - 0))) with 1 by (symmetry; rewrite Rabs_left; lra).
    repeat (rdec; cbn [andb]). left. cbn [fst snd]. rdec. reflexivity. }
  set (h := mkHull pts (match VS with [] => [] | _ => list2set VS' end) (segs (flat_map (pair_edges pts) (direct_pairs (List.length pts)))) false).
  exists h, A, B, C, E. split.
  { cbn [ConvexHull_compute]. unfold compute_direct_method. change (h_input (clear_results (ConvexHull_init pts))) with pts.
    replace (Nat.ltb (List.length pts) 3) with false by reflexivity. rewrite E1. cbn [bind app]. unfold h. destruct VS; [easy|]. now rewrite S1. }
  split; [cbn; auto|]. split; [cbn; auto|]. split; [cbn; auto|]. split; [cbn; auto 6|]. split.
  { left. now apply (in_map (fun e => Segment2D_of_points (fst e) (snd e)) _ (A, B)). }
  unfold side, cross, psub, pt, px, py, A, B, C, E. cbn. lra.
Qed.

(** ** C76: the Graham scan only drops points *)
Lemma list_set_split {A} (l : list A) i a b : nth_error l i = Some a -> exists l1 l2, l = l1 ++ a :: l2 /\ list_set l i b = l1 ++ b :: l2 /\ List.length l1 = i.
Proof.
  revert i. induction l as [|c l IH]; intros [|i] E; try discriminate.
  - injection E as ->. exists [], l. easy.
  - destruct (IH i E) as (l1 & l2 & -> & E2 & E3). exists (c :: l1), l2. cbn. rewrite E2, E3. easy.
Qed.
Lemma swap_perm {A} (l : list A) i j a b : nth_error l i = Some a -> nth_error l j = Some b ->
  Permutation (list_set (list_set l i b) j a) l.
Proof.
  intros Ea Eb. destruct (list_set_split l i a b Ea) as (l1 & l2 & E1 & E2 & E3). rewrite E2.
  destruct (Nat.eq_dec i j) as [<-|N].
  - assert (a = b) as <- by congruence. destruct (list_set_split (l1 ++ a :: l2) i a a) as (m1 & m2 & M1 & M2 & M3); [rewrite nth_error_app2, E3, Nat.sub_diag by lia; easy|].
    rewrite M2, <- M1, E1. reflexivity.
  - assert (Eb' : nth_error (l1 ++ b :: l2) j = Some b).
    { rewrite E1 in Eb. destruct (Nat.lt_ge_cases j (List.length l1)); [rewrite nth_error_app1 in Eb |- * by easy; easy|].
      rewrite nth_error_app2 in Eb |- * by easy. destruct (j - List.length l1)%nat eqn:Q; [lia|easy]. }
    destruct (list_set_split _ j b a Eb') as (m1 & m2 & M1 & M2 & _). rewrite M2.
    rewrite E1. apply Permutation_elt. apply Permutation_app_inv with b. now rewrite <- M1.
Qed.
Section Graham.
  Context {T : Type} `{Num T}.
  Lemma py_swap_perm {A} (l : list A) i j a b l1 l2 : py_get l i = Ok a -> py_get l j = Ok b -> py_set l i b = Ok l1 -> py_set l1 j a = Ok l2 -> Permutation l2 l.
  Proof.
    unfold py_get, py_set. destruct (py_index l i) as [i'|] eqn:Ei; [|discriminate]. destruct (py_index l j) as [j'|] eqn:Ej; [|discriminate].
    destruct (nth_error l i') eqn:Ea; [|discriminate]. destruct (nth_error l j') eqn:Eb; [|discriminate]. intros [= ->] [= ->] [= <-].
    assert (Ej' : py_index (list_set l i' b) j = Some j') by (unfold py_index in *; now rewrite list_set_length). rewrite Ej'. intros [= <-]. now apply swap_perm.
  Qed.
  Lemma graham_loop_perm is : forall (l : list (vec T)) top l' top', graham_loop is l top = Ok (l', top') -> Permutation l' l.
  Proof.
    induction is as [|i is IH]; intros l top l' top'; cbn [graham_loop].
    - intros [= <- <-]. reflexivity.
    - intros E. apply bind_ok in E as (p & E1 & E). apply bind_ok in E as (top1 & E2 & E). apply bind_ok in E as (tmp & E3 & E).
      apply bind_ok in E as (vi & E4 & E). apply bind_ok in E as (l1 & E5 & E). apply bind_ok in E as (l2 & E6 & E).
      rewrite (IH _ _ _ _ E). now apply (py_swap_perm _ _ _ _ _ _ _ E3 E4 E5 E6).
  Qed.
  (** The vertices after a Graham scan are the input points minus some of them:
      none is invented, and none occurs more often than in the input. *)
  Theorem C76_graham_drops_points : forall sorter (h h' : hull T), is_sorter sorter -> h_alias h = false ->
    ConvexHull_compute sorter GRAHAN_SCAN h = Ok h' -> (3 <= List.length (h_input h))%nat ->
    exists dropped, Permutation (h_input h) (hull_vertices h' ++ dropped).
  Proof.
    intros sorter h h' SO HA E HL.
    cbn [ConvexHull_compute] in E. unfold compute_graham_scan in E. unfold clear_results in E at 1 2 3 4 5 6 7 8. rewrite HA in E. cbn [h_input] in E.
    destruct (get_min_point_index (h_input h)) as [mi|] eqn:EM; [|destruct (h_input h); [cbn in HL; lia|discriminate]].
    assert (EL : Nat.ltb (List.length (h_input h)) 3 = false) by (apply Nat.ltb_ge; lia). rewrite EL in E.
    apply bind_ok in E as (p0 & E1 & E). apply bind_ok in E as (pm & E2 & E). apply bind_ok in E as (l1 & E3 & E).
    apply bind_ok in E as (l2 & E4 & E). apply bind_ok in E as (l3 & E5 & E). apply bind_ok in E as ([l4 top] & E6 & E).
    apply bind_ok in E as (es & E7 & E). apply bind_ok in E as (f & E8 & E). apply bind_ok in E as (la & E9 & E). injection E as <-.
    unfold hull_vertices. cbn [h_alias h_input]. unfold py_del_from. eexists.
    rewrite firstn_skipn. rewrite (graham_loop_perm _ _ _ _ _ E6), <- (SO _ _ E5). symmetry. now apply (py_swap_perm _ _ _ _ _ _ _ E1 E2 E3 E4).
  Qed.
End Graham.
Example C76_graham_drops_points_nonvacuous : forall L, exists h', is_sorter (@py_sort_small F (@angle_lt F (NumF L))) /\
  (3 <= List.length [fv 2 0; fv 3 (-2); fv (-1) (-2); fv (-2) (-3)])%nat /\
  @ConvexHull_compute F (NumF L) (@py_sort_small F (@angle_lt F (NumF L))) GRAHAN_SCAN (ConvexHull_init [fv 2 0; fv 3 (-2); fv (-1) (-2); fv (-2) (-3)]) = Ok h' /\
  List.length (hull_vertices h') = 3%nat.
Proof. exact C76_nonvacuous. Qed.
