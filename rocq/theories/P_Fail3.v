(** * P_Fail3: a convex hull after a compute that raised (C194) *)
From Coq Require Import ZArith List Bool String Reals Lra Lia Permutation.
From Flocq Require Import Core BinarySingleNaN.
From Verif Require Import Base Types NumR NumF R_Tac Spec Abs M_Vector M_Line M_Ray M_Triangle M_Segment M_Hull M_Fail
  P_Vector P_Hull P_Hull2 P_Hull3 P_Hull4 P_Graham P_GrahamF P_GrahamSafe.
Import ListNotations.

Definition set_in {T} (h : hull T) l := mkHull l (h_vertices h) (h_edges h) (h_alias h).
Definition set_vs {T} (h : hull T) l := mkHull (h_input h) l (h_edges h) (h_alias h).
Definition set_es {T} (h : hull T) l := mkHull (h_input h) (h_vertices h) l (h_alias h).
Definition unitr {A} (r : res A) : res unit := match r with Ok _ => Ok tt | Raise e => Raise e end.

Section Bodies.
  Context {T : Type} {N : Num T}.

  Definition edge_step (verts : list (vec T)) (lst : vec T) (acc : res (list (seg T))) (i : nat) : res (list (seg T)) :=
    (es <- acc ;;
     v <- py_get verts (Z.of_nat i) ;;
     if negb (Vector2D_eq v lst) then
       w <- py_get verts (Z.of_nat (S i)) ;;
       Ok (es ++ [Segment2D_of_points v w])
     else Ok es)%py.
  Lemma edge_fold_raise verts lst is e : fold_left (edge_step verts lst) is (Raise e) = Raise e.
  Proof. induction is as [|i is IH]; [reflexivity|]. exact IH. Qed.
  Lemma st_edges_ok verts lst is : forall h, exists es, st_edges verts lst is h = (unitr (fold_left (edge_step verts lst) is (Ok (h_edges h))), set_es h es) /\
    (forall es', fold_left (edge_step verts lst) is (Ok (h_edges h)) = Ok es' -> es' = es) /\
    (forall e, fold_left (edge_step verts lst) is (Ok (h_edges h)) = Raise e -> exists i v, In i is /\ (py_get verts (Z.of_nat i) = Raise e \/ py_get verts (Z.of_nat i) = Ok v /\ Vector2D_eq v lst = false /\ py_get verts (Z.of_nat (S i)) = Raise e)).
  Proof.
    induction is as [|i is IH]; intros h; cbn [st_edges fold_left].
    - exists (h_edges h). destruct h. split; [reflexivity|]. split; [now intros es' [= <-]|discriminate].
    - unfold andthen at 1, eval. unfold edge_step at 2 4 6. cbn [bind]. destruct (py_get verts (Z.of_nat i)) as [v|e] eqn:E1; cbn [bind].
      + unfold andthen. destruct (Vector2D_eq v lst) eqn:E2; cbn [negb].
        * destruct (IH h) as (es & S & F1 & F2). exists es. split; [exact S|]. split; [exact F1|]. intros e Q. destruct (F2 e Q) as (j & w & J1 & J2). exists j, w. split; [now right|exact J2].
        * destruct (py_get verts (Z.of_nat (S i))) as [w|e] eqn:E3; cbn [bind].
          -- unfold push_edge, write. destruct (IH (set_es h (h_edges h ++ [Segment2D_of_points v w]))) as (es & S & F1 & F2). exists es. split; [exact S|]. split; [exact F1|]. intros e Q. destruct (F2 e Q) as (j & w' & J1 & J2). exists j, w'. split; [now right|exact J2].
          -- rewrite edge_fold_raise. exists (h_edges h). destruct h. split; [reflexivity|]. split; [discriminate|]. intros e' [= <-]. exists i, v. split; [now left|right; auto].
      + rewrite edge_fold_raise. exists (h_edges h). destruct h. split; [reflexivity|]. split; [discriminate|]. intros e' [= <-]. exists i, lst. split; [now left|now left].
  Qed.
  Lemma last_nth {A} (l : list A) a r : rev l = a :: r -> nth_error l (List.length l - 1) = Some a.
  Proof.
    intros E. assert (L : l = rev r ++ [a]) by (rewrite <- (rev_involutive l), E; reflexivity). rewrite L. rewrite app_length. cbn [List.length]. rewrite nth_error_app2 by lia. replace (List.length (rev r) + 1 - 1 - List.length (rev r)) with 0 by lia. reflexivity.
  Qed.
  Lemma py_get_nth_error {A} (l : list A) (i : nat) : py_get l (Z.of_nat i) = match nth_error l i with Some a => Ok a | None => Raise IndexError end.
  Proof.
    unfold py_get, py_index. destruct (Z.ltb_spec (Z.of_nat i) 0); [lia|]. destruct (Z.leb_spec 0 (Z.of_nat i)); [|lia]. destruct (Z.ltb_spec (Z.of_nat i) (Z.of_nat (List.length l))); cbn [andb]; [now rewrite Nat2Z.id|].
    rewrite (proj2 (nth_error_None l i)) by lia. reflexivity.
  Qed.
  (** the loop over the edges: as in the value-level model; it fails only at the last vertex, when that differs from itself *)
  Lemma st_all_edges_ok verts h : h_edges h = [] -> exists es, st_all_edges verts h = (unitr (build_edges verts), set_es h es) /\ (forall es', build_edges verts = Ok es' -> es' = es) /\
    (forall e, build_edges verts = Raise e -> exists p, In p verts /\ Vector2D_eq p p = false).
  Proof.
    intros H0. unfold st_all_edges, build_edges. destruct (rev verts) as [|lst r] eqn:E.
    - exists []. destruct h; cbn in H0; subst. split; [reflexivity|]. split; [now intros es' [= <-]|discriminate].
    - destruct (st_edges_ok verts lst (seq 0 (List.length verts)) h) as (es & S & F1 & F2). rewrite H0 in *. change (fun acc i => _) with (edge_step verts lst). exists es. split; [exact S|]. split; [exact F1|].
      intros e Q. destruct (F2 e Q) as (i & v & I1 & I2). apply in_seq in I1. rewrite !py_get_nth_error in I2. pose proof (last_nth _ _ _ E) as L. destruct I2 as [I2|(I2 & I3 & I4)].
      + destruct (nth_error verts i) eqn:G; [discriminate|]. apply nth_error_None in G. lia.
      + destruct (nth_error verts (Datatypes.S i)) eqn:G; [discriminate|]. apply nth_error_None in G. replace (List.length verts - 1) with i in L by lia. rewrite L in I2. injection I2 as <-. exists lst. split; [now apply nth_error_In in L|exact I3].
  Qed.

  Lemma st_wrap_loop_ok pts mi fuel : forall cur used h, exists vs, st_wrap_loop fuel pts mi cur used h = (unitr (wrap_loop fuel pts mi cur used (h_vertices h)), set_vs h vs) /\
    (forall vs', wrap_loop fuel pts mi cur used (h_vertices h) = Ok vs' -> vs' = vs) /\ (incl (h_vertices h) pts -> incl vs pts).
  Proof.
    induction fuel as [|fuel IH]; intros cur used h; cbn [st_wrap_loop wrap_loop].
    - exists (h_vertices h). destruct h. split; [reflexivity|]. split; [now intros vs' [= <-]|easy].
    - unfold andthen, eval. destruct (py_get pts (Z.of_nat cur)) as [cp|e]; cbn [bind]; [|exists (h_vertices h); destruct h; split; [reflexivity|split; [discriminate|easy]]].
      destruct (wrap_scan _ _ _ _ _ _) as [c|e]; cbn [bind]; [|exists (h_vertices h); destruct h; split; [reflexivity|split; [discriminate|easy]]].
      destruct (py_get pts (Z.of_nat c)) as [p|e] eqn:P; cbn [bind]; [|exists (h_vertices h); destruct h; split; [reflexivity|split; [discriminate|easy]]].
      unfold push_vertex, write. assert (IP : incl (h_vertices h) pts -> incl (h_vertices h ++ [p]) pts) by (intros I; apply incl_app; [exact I|]; intros q [<-|[]]; now apply P_Hull2.py_get_in in P).
      destruct (Nat.eqb c mi).
      + exists (h_vertices h ++ [p]). split; [reflexivity|]. split; [now intros vs' [= <-]|exact IP].
      + destruct (IH c (used ++ [c]) (set_vs h (h_vertices h ++ [p]))) as (vs & S & F1 & F2). exists vs. split; [exact S|]. split; [exact F1|]. intros I. apply F2. cbn. now apply IP.
  Qed.

  Lemma min_index_lt (pts : list (vec T)) mi : get_min_point_index pts = Some mi -> (1 <= List.length pts)%nat.
  Proof. destruct pts; [discriminate|cbn; lia]. Qed.
  Lemma st_wrapping_ok h : exists h', st_wrapping h = (unitr (compute_wrapping_method h), h') /\ (forall h1, compute_wrapping_method h = Ok h1 -> h' = h1) /\
    (forall e, compute_wrapping_method h = Raise e -> h_alias h = false /\ h_alias h' = false /\ h_input h' = h_input h /\ incl (h_vertices h') (h_input h)).
  Proof.
    unfold st_wrapping, compute_wrapping_method. unfold andthen at 1 2, write at 1, self at 1. destruct h as [inp vs0 es0 []].
    - cbn [clear_results h_alias h_input get_min_point_index done]. eexists. split; [reflexivity|]. split; [now intros h1 [= <-]|discriminate].
    - cbn [clear_results h_alias h_input]. destruct (get_min_point_index inp) as [mi|]; [|eexists; split; [reflexivity|]; split; [now intros h1 [= <-]|discriminate]].
      destruct (Nat.ltb (List.length inp) 3); [eexists; split; [reflexivity|]; split; [now intros h1 [= <-]|discriminate]|].
      unfold andthen at 1, eval at 1. destruct (py_get inp (Z.of_nat mi)) as [p|e] eqn:P; cbn [bind]; [|eexists; split; [reflexivity|]; split; [discriminate|intros e' _; repeat split; intros q []]].
      unfold andthen at 1, push_vertex, write at 1. cbn [h_input h_vertices h_edges h_alias app].
      destruct (st_wrap_loop_ok inp mi (S (List.length inp)) mi [] (mkHull inp [p] [] false)) as (vs & S1 & F1 & F2). unfold set_vs in S1. cbn [h_vertices h_input h_edges h_alias] in *.
      assert (IV : incl vs inp) by (apply F2; intros q [<-|[]]; now apply P_Hull2.py_get_in in P).
      unfold andthen at 1. rewrite S1. destruct (wrap_loop _ _ _ _ _ _) as [vs1|e] eqn:W; cbn [bind unitr].
      + specialize (F1 _ eq_refl). subst vs1. unfold andthen at 1, self. cbn [h_vertices set_vs h_input h_edges h_alias].
        destruct (st_all_edges_ok vs (mkHull inp vs [] false) eq_refl) as (es & S2 & F3 & _). unfold andthen. rewrite S2. destruct (build_edges vs) as [es1|e]; cbn [bind unitr].
        * eexists. split; [reflexivity|]. specialize (F3 _ eq_refl). subst es1. split; [now intros h1 [= <-]|discriminate].
        * eexists. split; [reflexivity|]. split; [discriminate|]. intros e' _. repeat split. exact IV.
      + eexists. split; [reflexivity|]. split; [discriminate|]. intros e' _. repeat split. exact IV.
  Qed.

  Lemma st_direct_pairs_ok pts ijs : forall h, exists vs es, st_direct_pairs pts ijs h = (unitr (fold_left (direct_step pts) ijs (Ok (h_vertices h, h_edges h))), mkHull (h_input h) vs es (h_alias h)) /\
    (forall r, fold_left (direct_step pts) ijs (Ok (h_vertices h, h_edges h)) = Ok r -> r = (vs, es)) /\ (incl (h_vertices h) pts -> incl vs pts).
  Proof.
    assert (FR : forall ijs e, fold_left (direct_step pts) ijs (Raise e) = Raise e) by (clear; induction ijs as [|i ijs IH]; intros e; [reflexivity|exact (IH e)]).
    induction ijs as [|[i j] ijs IH]; intros h; cbn [st_direct_pairs fold_left].
    - exists (h_vertices h), (h_edges h). destruct h. split; [reflexivity|]. split; [now intros r [= <-]|easy].
    - unfold andthen, eval. cbn [direct_step bind].
      destruct (py_get pts (Z.of_nat i)) as [pf|e] eqn:P; cbn [bind]; [|rewrite FR; exists (h_vertices h), (h_edges h); destruct h; split; [reflexivity|split; [discriminate|easy]]].
      destruct (py_get pts (Z.of_nat j)) as [ps|e] eqn:Q; cbn [bind]; [|rewrite FR; exists (h_vertices h), (h_edges h); destruct h; split; [reflexivity|split; [discriminate|easy]]].
      destruct (direct_scan _ _ _ _ _ _ _) as [[] lv].
      + unfold push_vertex, push_edge, write. cbn [h_input h_vertices h_edges h_alias]. rewrite <- app_assoc. cbn [app].
        destruct (IH (mkHull (h_input h) (h_vertices h ++ [pf; ps]) (h_edges h ++ [if (lv <? num 0)%num then Segment2D_of_points pf ps else Segment2D_of_points ps pf]) (h_alias h))) as (vs & es & S & F1 & F2).
        exists vs, es. split; [exact S|]. split; [exact F1|]. intros I. apply F2. cbn [h_vertices]. apply incl_app; [exact I|]. intros q [<-|[<-|[]]]; [now apply P_Hull2.py_get_in in P|now apply P_Hull2.py_get_in in Q].
      + exact (IH h).
  Qed.
  Definition rearranging (srt : @sorting T) : Prop := forall l, Permutation l (snd (srt l)).
  Lemma st_direct_ok srt h : exists h', st_direct srt h = (unitr (compute_direct_method (sorted_by srt) h), h') /\ (forall h1, compute_direct_method (sorted_by srt) h = Ok h1 -> h' = h1) /\
    (forall e, compute_direct_method (sorted_by srt) h = Raise e -> rearranging srt -> h_alias h = false /\ h_alias h' = false /\ h_input h' = h_input h /\ incl (h_vertices h') (h_input h)).
  Proof.
    unfold st_direct, compute_direct_method. unfold andthen at 1 2, write at 1, self at 1. destruct h as [inp vs0 es0 []].
    - cbn [clear_results h_alias h_input List.length Nat.ltb Nat.leb done]. eexists. split; [reflexivity|]. split; [now intros h1 [= <-]|discriminate].
    - cbn [clear_results h_alias h_input]. destruct (Nat.ltb (List.length inp) 3); [eexists; split; [reflexivity|]; split; [now intros h1 [= <-]|discriminate]|].
      destruct (st_direct_pairs_ok inp (direct_pairs (List.length inp)) (mkHull inp [] [] false)) as (vs & es & S1 & F1 & F2). cbn [h_vertices h_edges h_input h_alias] in *.
      specialize (F2 ltac:(intros q [])). unfold andthen at 1. rewrite S1. destruct (fold_left _ _ _) as [[vs1 es1]|e] eqn:W; cbn [bind unitr].
      + specialize (F1 _ eq_refl). injection F1 as -> ->. unfold andthen at 1, self. cbn [h_vertices]. destruct vs as [|v vs]; [eexists; split; [reflexivity|]; split; [now intros h1 [= <-]|discriminate]|].
        unfold andthen, sorted_by. destruct (srt (v :: vs)) as [[[]|e] vs'] eqn:SO; cbn [bind h_input h_edges h_alias h_vertices unitr].
        * eexists. split; [reflexivity|]. split; [now intros h1 [= <-]|discriminate].
        * eexists. split; [reflexivity|]. split; [discriminate|]. intros e' _ R. repeat split. cbn [h_vertices]. specialize (R (v :: vs)). rewrite SO in R. cbn [snd] in R. intros q Hq. apply F2. now apply (Permutation_in _ (Permutation_sym R)).
      + eexists. split; [reflexivity|]. split; [discriminate|]. intros e' _ _. repeat split. exact F2.
  Qed.

  Lemma st_graham_loop_ok is : forall top h, exists l, st_graham_loop is top h = (match graham_loop is (h_input h) top with Ok (_, t) => Ok t | Raise e => Raise e end, set_in h l) /\
    (forall l' t, graham_loop is (h_input h) top = Ok (l', t) -> l' = l) /\ Permutation (h_input h) l.
  Proof.
    induction is as [|i is IH]; intros top h; cbn [st_graham_loop graham_loop].
    - exists (h_input h). destruct h. split; [reflexivity|]. split; [now intros l' t [= <- _]|reflexivity].
    - unfold andthen, self, eval.
      assert (END : forall e, exists l, (@Raise Z e, h) = (@Raise Z e, set_in h l) /\ (forall l' t, @Raise (list (vec T) * Z) e = Ok (l', t) -> l' = l) /\ Permutation (h_input h) l) by (intros e; exists (h_input h); destruct h; split; [reflexivity|]; split; [discriminate|reflexivity]).
      destruct (py_get (h_input h) (Z.of_nat i)) as [p|e] eqn:P; cbn [bind]; [|exact (END e)].
      destruct (graham_pop _ _ _ _) as [t1|e]; cbn [bind]; [|exact (END e)].
      destruct (py_get (h_input h) (t1 + 1)) as [tmp|e] eqn:Q; cbn [bind]; [|exact (END e)].
      destruct (py_set (h_input h) (t1 + 1) p) as [l1|e] eqn:S1; cbn [bind]; [|exact (END e)].
      unfold put_input, write. cbn [h_vertices h_edges h_alias].
      destruct (py_set_cases l1 (Z.of_nat i) tmp) as [(l2 & S2 & _)|S2].
      + rewrite S2. cbn [bind]. pose proof (py_swap_perm _ _ _ _ _ _ _ Q P S1 S2) as PM. destruct (IH (t1 + 1)%Z (set_in h l2)) as (l & S & F1 & F2). exists l. split; [exact S|]. split; [exact F1|].
        transitivity l2; [now apply Permutation_sym|exact F2].
      + exfalso. unfold py_get, py_index in P. unfold py_set, py_index in S1, S2. assert (LL : List.length l1 = List.length (h_input h)) by (destruct ((0 <=? _) && _)%Z in S1; [injection S1 as <-; apply P_Hull2.list_set_length|discriminate]).
        rewrite LL in S2. destruct ((0 <=? _) && _)%Z in P, S2; discriminate.
  Qed.
  Lemma del_prefix {A} (l : list A) top : exists d, l = py_del_from l top ++ d.
  Proof. unfold py_del_from. eexists. symmetry. apply firstn_skipn. Qed.
  (** the three places at which the scan can fail *)
  Definition graham_left (h h' : hull T) : Prop :=
    (h_alias h' = false /\ Permutation (h_input h) (h_input h') /\ h_vertices h' = [] /\ h_edges h' = []) \/
    (h_alias h' = true /\ Permutation (h_input h) (h_input h') /\ h_edges h' = []) \/
    (h_alias h' = true /\ (exists dropped, Permutation (h_input h) (h_input h' ++ dropped)) /\ (h_input h' = [] \/ exists p, In p (h_input h') /\ Vector2D_eq p p = false)).
  Lemma st_graham_ok srt h : exists h', st_graham srt h = (unitr (compute_graham_scan (sorted_by srt) h), h') /\ (forall h1, compute_graham_scan (sorted_by srt) h = Ok h1 -> h' = h1) /\
    (forall e, compute_graham_scan (sorted_by srt) h = Raise e -> rearranging srt -> h_alias h = false /\ graham_left h h').
  Proof.
    unfold st_graham, compute_graham_scan. unfold andthen at 1 2, write at 1, self at 1. destruct h as [inp vs0 es0 []].
    - cbn [clear_results h_alias h_input get_min_point_index done]. eexists. split; [reflexivity|]. split; [now intros h1 [= <-]|discriminate].
    - cbn [clear_results h_alias h_input]. destruct (get_min_point_index inp) as [mi|] eqn:MI; [|eexists; split; [reflexivity|]; split; [now intros h1 [= <-]|discriminate]].
      destruct (Nat.ltb (List.length inp) 3); [eexists; split; [reflexivity|]; split; [now intros h1 [= <-]|discriminate]|].
      destruct (setup inp (min_index_lt _ _ MI)) as (mi' & p0 & pm & l1 & l2 & M & E1 & E2 & E3 & E4 & PM). rewrite MI in M. injection M as <-.
      unfold andthen at 1 2 3, eval at 1 2 3. rewrite E1, E2, E3. unfold andthen at 1, put_input at 1, write at 1. unfold andthen at 1, eval at 1. rewrite E4. cbn [bind]. rewrite E3. cbn [bind]. rewrite E4. cbn [bind]. unfold andthen at 1, put_input at 1, write at 1. cbn [h_input h_vertices h_edges h_alias].
      unfold andthen at 1, sorted_by. destruct (srt l2) as [[[]|e] l3] eqn:SO; cbn [bind].
      2:{ eexists. split; [reflexivity|]. split; [discriminate|]. intros e' _ R. split; [reflexivity|]. left. cbn [h_input h_vertices h_edges h_alias]. repeat split. specialize (R l2). rewrite SO in R. cbn [snd] in R. transitivity l2; [now apply Permutation_sym|exact R]. }
      assert (P3 : rearranging srt -> Permutation inp l3) by (intros R; specialize (R l2); rewrite SO in R; cbn [snd] in R; transitivity l2; [now apply Permutation_sym|exact R]).
      unfold andthen at 1, write at 1. cbn [h_input h_vertices h_edges h_alias].
      destruct (st_graham_loop_ok (seq 2 (List.length inp - 2)) 1 (mkHull l3 [] [] true)) as (l4 & S4 & F4 & P4). cbn [h_input] in *. unfold andthen at 1. rewrite S4. destruct (graham_loop _ _ _) as [[l4' top]|e]; cbn [bind].
      2:{ eexists. split; [reflexivity|]. split; [discriminate|]. intros e' _ R. split; [reflexivity|]. right. left. cbn [set_in h_input h_vertices h_edges h_alias]. repeat split. transitivity l3; [now apply P3|exact P4]. }
      rewrite (F4 _ _ eq_refl). unfold andthen at 1, self at 1. unfold andthen at 1, put_input, write at 1. unfold andthen at 1, self at 1. cbn [set_in h_input h_vertices h_edges h_alias].
      set (l5 := py_del_from l4 (top + 1)). destruct (del_prefix l4 (top + 1)) as [d Ed]. fold l5 in Ed.
      assert (LEFT : rearranging srt -> exists dropped, Permutation inp (l5 ++ dropped)) by (intros R; exists d; rewrite <- Ed; transitivity l3; [now apply P3|exact P4]).
      destruct (st_all_edges_ok l5 (mkHull l5 [] [] true) eq_refl) as (es & S5 & F5 & F6). unfold andthen at 1. rewrite S5. destruct (build_edges l5) as [es1|e]; cbn [bind unitr].
      2:{ eexists. split; [reflexivity|]. split; [discriminate|]. intros e' _ R. split; [reflexivity|]. right. right. cbn [set_es h_input h_vertices h_edges h_alias]. repeat split; [now apply LEFT|]. right. now apply (F6 e). }
      rewrite <- (F5 _ eq_refl). unfold andthen, eval. destruct (py_get l5 0) as [f|e] eqn:G0; cbn [bind].
      2:{ eexists. split; [reflexivity|]. split; [discriminate|]. intros e' _ R. split; [reflexivity|]. right. right. cbn [set_es h_input h_vertices h_edges h_alias]. repeat split; [now apply LEFT|]. left. change 0%Z with (Z.of_nat 0) in G0. rewrite py_get_nth_error in G0. destruct l5; [reflexivity|discriminate]. }
      destruct (py_get l5 (-1)) as [g|e] eqn:G1; cbn [bind].
      2:{ exfalso. change 0%Z with (Z.of_nat 0) in G0. rewrite py_get_nth_error in G0. destruct l5; [discriminate|]. destruct (py_get_range (v :: l5) (-1)) as (a & A & _); [cbn [List.length]; lia|]. rewrite A in G1. discriminate. }
      eexists. split; [reflexivity|]. split; [now intros h1 [= <-]|discriminate].
  Qed.
End Bodies.

(** C194: a compute that returns leaves the hull the value-level model says; one that raises raises what it says. *)
Theorem C194_agrees : forall (T : Type) (N : Num T) (srt : sorting) (m : method_type) (h : hull T),
  match st_compute srt m h with
  | (Ok _, h') => ConvexHull_compute (sorted_by srt) m h = Ok h'
  | (Raise e, _) => ConvexHull_compute (sorted_by srt) m h = Raise e
  end.
Proof.
  intros T N srt m h. destruct m; cbn [st_compute ConvexHull_compute].
  - destruct (st_direct_ok srt h) as (h' & E & F & _). rewrite E. destruct (compute_direct_method _ h) as [h1|e]; cbn [unitr]; [now rewrite (F _ eq_refl)|reflexivity].
  - destruct (st_wrapping_ok h) as (h' & E & F & _). rewrite E. destruct (compute_wrapping_method h) as [h1|e]; cbn [unitr]; [now rewrite (F _ eq_refl)|reflexivity].
  - destruct (st_graham_ok srt h) as (h' & E & F & _). rewrite E. destruct (compute_graham_scan _ h) as [h1|e]; cbn [unitr]; [now rewrite (F _ eq_refl)|reflexivity].
Qed.

(** C194: the wrapping and direct methods fail safely.  When compute raises, the points are the ones given, in their
    order, the vertices so far are among them, and the next compute, by any method, does exactly what it would have
    done without the failed one. *)
Theorem C194_wrapping_direct : forall (T : Type) (N : Num T) (srt : sorting) (m : method_type) (h h' : hull T) e, rearranging srt -> m <> GRAHAN_SCAN ->
  st_compute srt m h = (Raise e, h') ->
  h_input h' = h_input h /\ incl (hull_vertices h') (h_input h) /\ (forall m', st_compute srt m' h' = st_compute srt m' h).
Proof.
  intros T N srt m h h' e R NG E.
  assert (G : h_alias h = false /\ h_alias h' = false /\ h_input h' = h_input h /\ incl (h_vertices h') (h_input h)).
  { destruct m; [| |now destruct NG]; cbn [st_compute] in E.
    - destruct (st_direct_ok srt h) as (h1 & E1 & _ & F). rewrite E1 in E. destruct (compute_direct_method _ h) as [h2|e2]; [discriminate|]. injection E as _ <-. now apply (F e2).
    - destruct (st_wrapping_ok h) as (h1 & E1 & _ & F). rewrite E1 in E. destruct (compute_wrapping_method h) as [h2|e2]; [discriminate|]. injection E as _ <-. now apply (F e2). }
  destruct G as (A1 & A2 & I & V). split; [exact I|]. split; [unfold hull_vertices; now rewrite A2|].
  assert (C : clear_results h' = clear_results h) by (unfold clear_results; now rewrite A1, A2, I).
  intros m'. destruct m'; cbn [st_compute]; [unfold st_direct|unfold st_wrapping|unfold st_graham]; unfold andthen at 1, write at 1; unfold andthen at 2, write at 2; now rewrite C.
Qed.

(** C194: the Graham scan does not.  When it raises (from a hull whose lists are still two objects: on an aliased hull it never does) one of
    three things is left: nothing computed and the points in some order (the sort failed); all the points, in some
    order, reported as the vertices, with no edges (the scan failed); or some of the points thrown away (the edges
    failed, which takes a NaN coordinate or a scan that kept nothing). *)
Theorem C194_graham : forall (T : Type) (N : Num T) (srt : sorting) (h h' : hull T) e, rearranging srt -> st_compute srt GRAHAN_SCAN h = (Raise e, h') ->
  h_alias h = false /\
  ((Permutation (h_input h) (h_input h') /\ h_alias h' = false /\ hull_vertices h' = [] /\ h_edges h' = []) \/
   (Permutation (h_input h) (h_input h') /\ h_alias h' = true /\ hull_vertices h' = h_input h' /\ h_edges h' = []) \/
   (h_alias h' = true /\ hull_vertices h' = h_input h' /\ (exists dropped, Permutation (h_input h) (h_input h' ++ dropped)) /\
    (h_input h' = [] \/ exists p, In p (h_input h') /\ Vector2D_eq p p = false))).
Proof.
  intros T N srt h h' e R E. cbn [st_compute] in E. destruct (st_graham_ok srt h) as (h1 & E1 & _ & F). rewrite E1 in E. destruct (compute_graham_scan _ h) as [h2|e2]; [discriminate|]. injection E as _ <-.
  destruct (F e2 eq_refl R) as [A G]. split; [exact A|]. unfold hull_vertices. destruct G as [(G1 & G2 & G3 & G4)|[(G1 & G2 & G3)|(G1 & G2 & G3)]]; rewrite G1; [left|right; left|right; right]; repeat split; assumption.
Qed.

(** C194: and once the scan has failed with the lists shared, trying again, by any method, "works": it returns, and
    the hull, and the caller's list of points, are empty. *)
Theorem C194_retry_empties : forall (T : Type) (N : Num T) (srt : sorting) (m : method_type) (h : hull T), h_alias h = true ->
  exists h', st_compute srt m h = (Ok tt, h') /\ h_input h' = [] /\ hull_vertices h' = [] /\ h_edges h' = [].
Proof. intros T N srt m h A. destruct h as [inp vs es al]. cbn in A. subst al. exists (mkHull [] [] [] true). destruct m; repeat split; reflexivity. Qed.

(** list.sort as it is used here: it returns, with the list rearranged *)
Definition sort_returns {T} (srt : sorting) : Prop := forall l : list (vec T), fst (srt l) = Ok tt.
(** C194: three or more copies of a point: compute(GRAHAN_SCAN) raises IndexError and reports all the copies as
    vertices; a second compute, whatever the method, returns with no vertices and the points gone. *)
Theorem C194_copies_lost_R : forall (p : vec R) (n : nat) (srt : sorting) (m : method_type), rearranging srt -> sort_returns srt -> (3 <= n)%nat ->
  exists h1 h2, st_compute srt GRAHAN_SCAN (ConvexHull_init (repeat p n)) = (Raise IndexError, h1) /\ hull_vertices h1 = repeat p n /\ h_edges h1 = [] /\
    st_compute srt m h1 = (Ok tt, h2) /\ h_input h2 = [] /\ hull_vertices h2 = [].
Proof.
  intros p n srt m RA SR N.
  assert (PR : forall l : list (vec R), Permutation (repeat p n) l -> l = repeat p n).
  { intros l P. assert (L : List.length l = n) by (rewrite <- (Permutation_length P); apply repeat_length). rewrite <- L. apply Forall_eq_repeat. apply Forall_forall. intros q Hq. symmetry. eapply repeat_spec. apply (Permutation_in _ (Permutation_sym P)) in Hq. exact Hq. }
  assert (CW : hull_is_clockwise p p p = Ok false).
  { unfold hull_is_clockwise. rewrite !dist2_R. cbn [bind]. unfold double_signed_area_st, EPSILON. rnum. replace (_ + _)%R with 0%R by ring.
    rewrite (Rlt_bool_false 0 0), (Rlt_bool_true 0) by lra. now rewrite Rlt_bool_false by lra. }
  set (h1 := mkHull (repeat p n) [] [] true).
  assert (S : st_compute srt GRAHAN_SCAN (ConvexHull_init (repeat p n)) = (Raise IndexError, h1)).
  { cbn [st_compute]. unfold st_graham. unfold andthen at 1 2, write at 1, self at 1. cbn [ConvexHull_init clear_results h_alias h_input].
    assert (L3 : (1 <= List.length (repeat p n))%nat) by (rewrite repeat_length; lia). destruct (setup (repeat p n) L3) as (mi & p0 & pm & l1 & l2 & M & E1 & E2 & E3 & E4 & PM). rewrite M.
    rewrite (proj2 (Nat.ltb_ge _ _)) by (rewrite repeat_length; lia).
    unfold andthen at 1 2 3, eval at 1 2 3. rewrite E1, E2, E3. unfold andthen at 1, put_input at 1, write at 1. unfold andthen at 1, eval at 1. rewrite E4. unfold andthen at 1, put_input at 1, write at 1. cbn [h_input h_vertices h_edges h_alias].
    unfold andthen at 1. specialize (SR l2). specialize (RA l2). destruct (srt l2) as [[[]|e] l3] eqn:SO2; [|discriminate]. cbn [snd] in RA. unfold andthen at 1, write at 1. cbn [h_input h_vertices h_edges h_alias].
    assert (E5 : l3 = repeat p n) by (apply PR; transitivity l2; [now apply Permutation_sym|exact RA]). subst l3. fold h1.
    destruct (st_graham_loop_ok (seq 2 (List.length (repeat p n) - 2)) 1 h1) as (l4 & S4 & _ & P4). unfold andthen at 1. rewrite S4.
    assert (GL : graham_loop (seq 2 (List.length (repeat p n) - 2)) (h_input h1) 1 = Raise IndexError).
    { rewrite repeat_length. destruct n as [|[|[|n]]]; try lia. cbn [Nat.sub seq graham_loop h1 h_input]. destruct (py_get_range (repeat p (S (S (S n)))) (Z.of_nat 2)) as (q & Q & Q'); [rewrite repeat_length; lia|]. apply repeat_spec in Q'. subst q. rewrite Q. cbn [bind].
      rewrite pop_copies; [reflexivity|exact CW|lia|lia|rewrite repeat_length; lia]. }
    rewrite GL. unfold set_in. cbn [h1 h_vertices h_edges h_alias]. now rewrite (PR l4 P4). }
  destruct (C194_retry_empties _ _ srt m h1 eq_refl) as (h2 & H1 & H2 & H3 & _). exists h1, h2. split; [exact S|]. repeat split; assumption.
Qed.
Example C194_nonvacuous : rearranging (T := R) (fun l => (Ok tt, l)) /\ sort_returns (T := R) (fun l => (Ok tt, l)) /\
  exists h', st_compute (fun l => (Ok tt, l)) GRAHAN_SCAN (ConvexHull_init (repeat (V 1%R 2%R) 4)) = (Raise IndexError, h') /\ h_alias h' = true.
Proof.
  assert (A : rearranging (T := R) (fun l => (Ok tt, l))) by (intros l; reflexivity). assert (B : sort_returns (T := R) (fun l => (Ok tt, l))) by (intros l; reflexivity). split; [exact A|]. split; [exact B|].
  destruct (C194_copies_lost_R (V 1%R 2%R) 4 (fun l => (Ok tt, l)) GRAHAN_SCAN A B ltac:(lia)) as (h1 & h2 & E & V1 & E1 & E2 & I2 & _). exists h1. split; [exact E|].
  destruct (h_alias h1) eqn:AL; [reflexivity|]. exfalso. destruct (C194_graham _ _ _ _ _ _ A E) as [_ [(_ & _ & Q & _)|[(_ & Q & _)|(Q & _)]]]; [rewrite V1 in Q; discriminate|rewrite AL in Q; discriminate|rewrite AL in Q; discriminate].
Qed.
(** the failure the other methods can meet: two points so far apart that the squared distance overflows; x ** 2 is x * x here *)
Definition libm_far : libm := {| lm_sin := fun x => x; lm_cos := fun x => x; lm_tan := fun x => x; lm_asin := fun x => x; lm_acos := fun x => x; lm_atan := fun x => x;
  lm_atan2 := fun x _ => x; lm_exp := fun x => x; lm_log := fun x => x; lm_pow := fun x _ => Bmult mode_NE x x |}.
Example C194_wrapping_nonvacuous : let h := ConvexHull_init [V (F_of_Z 0) (F_of_Z 0); V (Fd 1 600) (F_of_Z 0); V (Fd 1 601) (F_of_Z 0)] in
  fst (@st_compute F (NumF libm_far) (fun l => (Ok tt, l)) WRAPPING_METHOD h) = Raise OverflowError /\ List.length (h_vertices (snd (@st_compute F (NumF libm_far) (fun l => (Ok tt, l)) WRAPPING_METHOD h))) = 1%nat.
Proof. cbv zeta. split; vm_compute; reflexivity. Qed.

(** A program that goes on after each exception. *)
Definition hull_catching {T} {N : Num T} (srt : sorting) (cs : list hull_call) (h : hull T) : hull T :=
  fold_left (fun h c => caught (st_hull_call srt c) h) cs h.
Definition given {T} (c : @hull_call T) : list (vec T) := match c with CallAddPoints ps => ps | _ => [] end.

Section Hist.
  Context {T : Type} {N : Num T}.
  Lemma compute_any (srt : @sorting T) m h : rearranging srt -> let h' := caught (st_compute srt m) h in incl (h_input h') (h_input h) /\ (m <> GRAHAN_SCAN -> h_alias h = false -> h_input h' = h_input h /\ h_alias h' = false) /\ (h_alias h = true -> h_alias h' = true).
  Proof.
    intros R. cbv zeta. unfold caught. destruct (h_alias h) eqn:AL.
    { destruct (C194_retry_empties T N srt m h AL) as (h' & E & I & _). rewrite E. cbn [snd]. rewrite I. split; [intros x []|]. split; [discriminate|]. intros _. pose proof (C194_agrees T N srt m h) as A. rewrite E in A.
      destruct h as [a b c d]; cbn in AL; subst d. destruct m; cbn in A; injection A as <-; reflexivity. }
    destruct (st_compute srt m h) as [[[]|e] h'] eqn:E; cbn [snd].
    - pose proof (C194_agrees T N srt m h) as A. rewrite E in A. destruct m; cbn [ConvexHull_compute] in A.
      + unfold compute_direct_method, clear_results in A. rewrite AL in A. cbn [h_input] in A. assert (G : h_input h' = h_input h /\ h_alias h' = false).
        { destruct (Nat.ltb _ 3); [injection A as <-; now split|]. apply bind_ok in A as ([vs es] & _ & A). destruct vs; [injection A as <-; now split|]. apply bind_ok in A as (vs' & _ & A). injection A as <-. now split. }
        destruct G as [G1 G2]. rewrite G1. split; [apply incl_refl|]. split; [now split|discriminate].
      + unfold compute_wrapping_method, clear_results in A. rewrite AL in A. cbn [h_input] in A. assert (G : h_input h' = h_input h /\ h_alias h' = false).
        { destruct (get_min_point_index _); [|injection A as <-; now split]. destruct (Nat.ltb _ 3); [injection A as <-; now split|]. apply bind_ok in A as (p & _ & A). apply bind_ok in A as (vs & _ & A). apply bind_ok in A as (es & _ & A). injection A as <-. now split. }
        destruct G as [G1 G2]. rewrite G1. split; [apply incl_refl|]. split; [now split|discriminate].
      + split; [|split; [intros NG; now destruct NG|discriminate]]. destruct (Nat.ltb_spec (List.length (h_input h)) 3) as [L|L].
        * unfold compute_graham_scan, clear_results in A. rewrite AL in A. cbn [h_input] in A. destruct (get_min_point_index _); [|injection A as <-; apply incl_refl]. rewrite (proj2 (Nat.ltb_lt _ _) L) in A. injection A as <-. apply incl_refl.
        * destruct (C76_graham_destroys (sorted_by srt) h h') as (_ & I & _); try assumption. intros l l'. unfold sorted_by. specialize (R l). destruct (srt l) as [[[]|e] l1]; [|discriminate]. now intros [= <-].
    - destruct m.
      + destruct (C194_wrapping_direct T N srt DIRECT_METHOD h h' e R ltac:(discriminate) E) as (I & _). rewrite I. split; [apply incl_refl|]. split; [|discriminate]. intros _ _. split; [reflexivity|].
        cbn [st_compute] in E. destruct (st_direct_ok srt h) as (h1 & E1 & _ & F). rewrite E1 in E. destruct (compute_direct_method _ h) as [h2|e2]; [discriminate|]. injection E as _ <-. now destruct (F e2 eq_refl R) as (_ & ? & _).
      + destruct (C194_wrapping_direct T N srt WRAPPING_METHOD h h' e R ltac:(discriminate) E) as (I & _). rewrite I. split; [apply incl_refl|]. split; [|discriminate]. intros _ _. split; [reflexivity|].
        cbn [st_compute] in E. destruct (st_wrapping_ok h) as (h1 & E1 & _ & F). rewrite E1 in E. destruct (compute_wrapping_method h) as [h2|e2]; [discriminate|]. injection E as _ <-. now destruct (F e2 eq_refl) as (_ & ? & _).
      + split; [|split; [intros NG; now destruct NG|discriminate]]. destruct (C194_graham T N srt h h' e R E) as [_ [(P & _)|[(P & _)|(_ & _ & (d & P) & _)]]].
        * intros x Hx. now apply (Permutation_in _ (Permutation_sym P)).
        * intros x Hx. now apply (Permutation_in _ (Permutation_sym P)).
        * intros x Hx. apply (Permutation_in _ (Permutation_sym P)). apply in_or_app. now left.
  Qed.
End Hist.
(** C194: through any sequence of calls, some of which raise: no point appears that was not given; and as long as the
    Graham scan and clear are not used, the list of points is exactly the points given, in order. *)
Theorem C194_history : forall (T : Type) (N : Num T) (srt : sorting) (cs : list hull_call) (h : hull T), rearranging srt ->
  let h' := hull_catching srt cs h in
  incl (h_input h') (h_input h ++ List.concat (map given cs)) /\
  (h_alias h = false -> ~ In (CallCompute GRAHAN_SCAN) cs -> ~ In CallClear cs -> h_input h' = h_input h ++ List.concat (map given cs)).
Proof.
  intros T N srt cs h R. cbv zeta.
  assert (G : incl (h_input (hull_catching srt cs h)) (h_input h ++ List.concat (map given cs)) /\
    (h_alias h = false -> ~ In (CallCompute GRAHAN_SCAN) cs -> ~ In CallClear cs -> h_input (hull_catching srt cs h) = h_input h ++ List.concat (map given cs) /\ h_alias (hull_catching srt cs h) = false)).
  2:{ destruct G as [G1 G2]. split; [exact G1|]. intros A1 A2 A3. now apply G2. }
  induction cs as [|c cs IH] using rev_ind; [cbn; rewrite app_nil_r; split; [apply incl_refl|now split]|].
  assert (E : hull_catching srt (cs ++ [c]) h = caught (st_hull_call srt c) (hull_catching srt cs h)) by (unfold hull_catching; now rewrite fold_left_app). rewrite E. clear E. set (k := hull_catching srt cs h) in *. rewrite map_app, List.concat_app. cbn [map List.concat]. rewrite app_nil_r, app_assoc. destruct IH as [IH1 IH2].
  destruct c as [ps| | |m]; cbn [st_hull_call given].
  - unfold caught, write. cbn [snd ConvexHull_add_points h_input h_alias]. split; [apply incl_app; [now apply incl_appl|now apply incl_appr, incl_refl]|].
    intros A1 A2 A3. destruct IH2 as [-> B]; [exact A1|intros I; apply A2, in_or_app; now left|intros I; apply A3, in_or_app; now left|]. split; [reflexivity|exact B].
  - rewrite app_nil_r. split; [unfold caught, write; cbn [snd ConvexHull_clear h_input]; intros x []|]. intros _ _ A3. exfalso. apply A3, in_or_app. right. now left.
  - rewrite app_nil_r. unfold caught, write. cbn [snd]. split; [unfold clear_results; destruct (h_alias k); [intros x []|exact IH1]|].
    intros A1 A2 A3. destruct IH2 as [I B]; [exact A1|intros Q; apply A2, in_or_app; now left|intros Q; apply A3, in_or_app; now left|]. unfold clear_results. rewrite B. now split.
  - rewrite app_nil_r. destruct (compute_any srt m k R) as (C1 & C2 & _). split; [intros x Hx; now apply IH1, C1|].
    intros A1 A2 A3. destruct IH2 as [I B]; [exact A1|intros Q; apply A2, in_or_app; now left|intros Q; apply A3, in_or_app; now left|]. rewrite <- I. apply C2; [|exact B]. intros ->. apply A2, in_or_app. right. now left.
Qed.
Example C194_history_nonvacuous : let cs := [CallAddPoints [V (F_of_Z 0) (F_of_Z 0); V (Fd 1 600) (F_of_Z 0); V (Fd 1 601) (F_of_Z 0)]; CallCompute WRAPPING_METHOD; CallAddPoints [V (F_of_Z 1) (F_of_Z 1)]] in
  ~ In (CallCompute GRAHAN_SCAN) cs /\ ~ In CallClear cs /\ List.length (h_input (@hull_catching F (NumF libm_far) (fun l => (Ok tt, l)) cs (ConvexHull_init []))) = 4%nat.
Proof.
  cbv zeta. split; [|split].
  - intros [Q|[Q|[Q|[]]]]; discriminate.
  - intros [Q|[Q|[Q|[]]]]; discriminate.
  - vm_compute. reflexivity.
Qed.
