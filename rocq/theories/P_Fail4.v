(** * P_Fail4: the edges a convex hull reports, also after a compute that raised (C194) *)
From Coq Require Import ZArith List Bool String Reals Lra Lia Permutation.
From Flocq Require Import Core BinarySingleNaN.
From Verif Require Import Base Types NumR NumF R_Tac Spec Abs M_Vector M_Line M_Ray M_Triangle M_Segment M_Hull M_Fail
  P_Vector P_Hull P_Hull2 P_Hull3 P_Hull4 P_Graham P_GrahamF P_GrahamSafe P_Fail3.
Import ListNotations.

(** the segment joins two of the points *)
Definition joins {T} `{Num T} (pts : list (vec T)) (s : seg T) : Prop := exists a b, In a pts /\ In b pts /\ s = Segment2D_of_points a b.

Section Keep.
  Context {T : Type} {N : Num T} (G : list (vec T)).
  Definition all_from (h : hull T) : Prop := incl (h_input h) G /\ incl (h_vertices h) G /\ Forall (joins G) (h_edges h).
  (** whatever the body does, also when it raises, the hull goes on holding points of G only, and a result is as Q says *)
  Definition keeps {A} (Q : A -> Prop) (b : body (hull T) A) : Prop := forall h, all_from h -> all_from (snd (b h)) /\ (forall a, fst (b h) = Ok a -> Q a).
  Definition anything {A} (_ : A) : Prop := True.

  Lemma keeps_then {A B} (P : A -> Prop) (Q : B -> Prop) b k : keeps P b -> (forall a, P a -> keeps Q (k a)) -> keeps Q (andthen b k).
  Proof. intros K1 K2 h H. unfold andthen. destruct (K1 h H) as [I J]. destruct (b h) as [[a|e] h1]; cbn [fst snd] in *; [exact (K2 a (J a eq_refl) h1 I)|split; [exact I|discriminate]]. Qed.
  Lemma keeps_done {A} (Q : A -> Prop) a : Q a -> keeps Q (done a).
  Proof. intros q h H. split; [exact H|]. now intros a' [= <-]. Qed.
  Lemma keeps_eval {A} (Q : A -> Prop) x : (forall a, x = Ok a -> Q a) -> keeps Q (eval x).
  Proof. intros q h H. split; [exact H|exact q]. Qed.
  Lemma keeps_get l i : incl l G -> keeps (fun p => In p G) (eval (py_get l i)).
  Proof. intros I. apply keeps_eval. intros a E. apply I. now apply P_Hull2.py_get_in in E. Qed.
  Lemma keeps_set l i x : incl l G -> In x G -> keeps (fun l' => incl l' G) (eval (py_set l i x)).
  Proof.
    intros I IX. apply keeps_eval. intros l' E. unfold py_set in E. destruct (py_index l i) as [n|]; [|discriminate]. injection E as <-. intros y Hy.
    revert n Hy I. clear -IX. induction l as [|a l IH]; intros [|n] Hy I; cbn in Hy; try easy.
    - destruct Hy as [<-|Hy]; [exact IX|apply I; now right].
    - destruct Hy as [<-|Hy]; [apply I; now left|]. apply (IH n Hy). intros z Hz. apply I. now right.
  Qed.
  Lemma keeps_any {A} (Q : A -> Prop) b : keeps Q b -> keeps anything b.
  Proof. intros K h H. destruct (K h H). split; [assumption|]. now intros. Qed.
  Lemma keeps_input : keeps (fun l => incl l G) (self (@h_input T)).
  Proof. intros h H. split; [exact H|]. intros a [= <-]. apply H. Qed.
  Lemma keeps_vertices : keeps (fun l => incl l G) (self (@h_vertices T)).
  Proof. intros h H. split; [exact H|]. intros a [= <-]. apply H. Qed.
  Lemma keeps_put l : incl l G -> keeps anything (put_input l).
  Proof. intros I h (H1 & H2 & H3). split; [now split|now intros]. Qed.
  Lemma keeps_vertex p : In p G -> keeps anything (push_vertex p).
  Proof. intros I h (H1 & H2 & H3). split; [split; [exact H1|split; [|exact H3]]|now intros]. cbn. apply incl_app; [exact H2|]. intros q [<-|[]]. exact I. Qed.
  Lemma keeps_edge a b : In a G -> In b G -> keeps anything (push_edge (Segment2D_of_points a b)).
  Proof. intros I J h (H1 & H2 & H3). split; [split; [exact H1|split; [exact H2|]]|now intros]. cbn. apply Forall_app. split; [exact H3|]. constructor; [|constructor]. now exists a, b. Qed.
  Lemma keeps_clear : keeps anything (write (@clear_results T)).
  Proof. intros h (H1 & H2 & H3). split; [|now intros]. unfold write, clear_results. cbn [snd]. destruct (h_alias h); (split; [|split; [|constructor]]); try (intros x []); exact H1. Qed.

  Lemma keeps_edges verts lst is : incl verts G -> keeps anything (st_edges verts lst is).
  Proof.
    intros I. induction is as [|i is IH]; cbn [st_edges]; [now apply keeps_done|]. apply (keeps_then _ _ _ _ (keeps_get _ _ I)). intros v Hv. apply (keeps_then anything); [|intros _ _; exact IH].
    destruct (negb _); [|now apply keeps_done]. apply (keeps_then _ _ _ _ (keeps_get _ _ I)). intros w Hw. now apply keeps_edge.
  Qed.
  Lemma keeps_all_edges verts : incl verts G -> keeps anything (st_all_edges verts).
  Proof. intros I. unfold st_all_edges. destruct (rev verts); [now apply keeps_done|now apply keeps_edges]. Qed.
  Lemma keeps_wrap_loop pts mi fuel : incl pts G -> forall cur used, keeps anything (st_wrap_loop fuel pts mi cur used).
  Proof.
    intros I. induction fuel as [|fuel IH]; intros cur used; cbn [st_wrap_loop]; [now apply keeps_done|]. apply (keeps_then _ _ _ _ (keeps_get _ _ I)). intros cp _. apply (keeps_then anything); [now apply keeps_eval|]. intros c _.
    apply (keeps_then _ _ _ _ (keeps_get _ _ I)). intros p Hp. apply (keeps_then _ _ _ _ (keeps_vertex p Hp)). intros _ _. destruct (Nat.eqb c mi); [now apply keeps_done|apply IH].
  Qed.
  Lemma incl_removelast {A} (l : list A) : incl (removelast l) l.
  Proof. induction l as [|a l IH]; [easy|]. destruct l; [intros x []|]. intros x [<-|Hx]; [now left|right; now apply IH]. Qed.
  Lemma keeps_wrapping : keeps anything (@st_wrapping T N).
  Proof.
    unfold st_wrapping. apply (keeps_then _ _ _ _ keeps_clear). intros _ _. apply (keeps_then _ _ _ _ keeps_input). intros pts I. destruct (get_min_point_index pts) as [mi|]; [|now apply keeps_done]. destruct (Nat.ltb _ 3); [now apply keeps_done|].
    apply (keeps_then _ _ _ _ (keeps_get _ _ I)). intros p Hp. apply (keeps_then _ _ _ _ (keeps_vertex p Hp)). intros _ _. apply (keeps_then _ _ _ _ (keeps_wrap_loop _ _ _ I _ _)). intros _ _.
    apply (keeps_then _ _ _ _ keeps_vertices). intros vs IV. apply (keeps_then _ _ _ _ (keeps_all_edges _ IV)). intros _ _ h (H1 & H2 & H3). split; [|now intros]. split; [exact H1|split; [|exact H3]]. cbn. intros x Hx. now apply H2, incl_removelast.
  Qed.
  Lemma keeps_direct_pairs pts ijs : incl pts G -> keeps anything (st_direct_pairs pts ijs).
  Proof.
    intros I. induction ijs as [|[i j] ijs IH]; cbn [st_direct_pairs]; [now apply keeps_done|]. apply (keeps_then _ _ _ _ (keeps_get _ _ I)). intros pf Hf. apply (keeps_then _ _ _ _ (keeps_get _ _ I)). intros ps Hs.
    destruct (direct_scan _ _ _ _ _ _ _) as [[] lv]; (apply (keeps_then anything); [|intros _ _; exact IH]); [|now apply keeps_done].
    apply (keeps_then _ _ _ _ (keeps_vertex _ Hf)). intros _ _. apply (keeps_then _ _ _ _ (keeps_vertex _ Hs)). intros _ _. destruct (_ <? _)%num; now apply keeps_edge.
  Qed.
  Lemma incl_list2set (l : list (vec T)) : incl (list2set l) l.
  Proof.
    induction l as [|a l IH] using rev_ind; [intros x []|]. unfold list2set in *. rewrite fold_left_app. cbn [fold_left]. destruct (vec_in a _).
    - intros x Hx. apply in_or_app. left. now apply IH.
    - apply incl_app; [intros x Hx; apply in_or_app; left; now apply IH|apply incl_appr, incl_refl].
  Qed.
  Lemma keeps_direct srt : rearranging srt -> keeps anything (st_direct srt).
  Proof.
    intros R. unfold st_direct. apply (keeps_then _ _ _ _ keeps_clear). intros _ _. apply (keeps_then _ _ _ _ keeps_input). intros pts I. destruct (Nat.ltb _ 3); [now apply keeps_done|].
    apply (keeps_then _ _ _ _ (keeps_direct_pairs _ _ I)). intros _ _. apply (keeps_then _ _ _ _ keeps_vertices). intros [|v vs] IV; [now apply keeps_done|]. apply (keeps_then anything).
    - intros h (H1 & H2 & H3). specialize (R (v :: vs)). destruct (srt (v :: vs)) as [o vs']. cbn [snd fst] in *. split; [|now intros]. split; [exact H1|split; [|exact H3]]. cbn. intros x Hx. apply IV. now apply (Permutation_in _ (Permutation_sym R)).
    - intros _ _ h (H1 & H2 & H3). split; [|now intros]. split; [exact H1|split; [|exact H3]]. cbn. intros x Hx. now apply H2, incl_list2set.
  Qed.
  Lemma keeps_graham_loop is : forall top, keeps anything (st_graham_loop is top).
  Proof.
    induction is as [|i is IH]; intros top; cbn [st_graham_loop]; [now apply keeps_done|]. apply (keeps_then _ _ _ _ keeps_input). intros l I. apply (keeps_then _ _ _ _ (keeps_get _ _ I)). intros p Hp. apply (keeps_then anything); [now apply keeps_eval|]. intros t _. cbv zeta.
    apply (keeps_then _ _ _ _ (keeps_get _ _ I)). intros tmp Ht. apply (keeps_then _ _ _ _ (keeps_get _ _ I)). intros vi Hv. apply (keeps_then _ _ _ _ (keeps_set _ _ _ I Hv)). intros l1 I1. apply (keeps_then _ _ _ _ (keeps_put _ I1)). intros _ _.
    apply (keeps_then _ _ _ _ (keeps_set _ _ _ I1 Ht)). intros l2 I2. apply (keeps_then _ _ _ _ (keeps_put _ I2)). intros _ _. apply IH.
  Qed.
  Lemma keeps_graham srt : rearranging srt -> keeps anything (st_graham srt).
  Proof.
    intros R. unfold st_graham. apply (keeps_then _ _ _ _ keeps_clear). intros _ _. apply (keeps_then _ _ _ _ keeps_input). intros pts I. destruct (get_min_point_index pts) as [mi|]; [|now apply keeps_done]. destruct (Nat.ltb _ 3); [now apply keeps_done|].
    apply (keeps_then _ _ _ _ (keeps_get _ _ I)). intros p0 H0. apply (keeps_then _ _ _ _ (keeps_get _ _ I)). intros pm Hm. apply (keeps_then _ _ _ _ (keeps_set _ _ _ I Hm)). intros l1 I1. apply (keeps_then _ _ _ _ (keeps_put _ I1)). intros _ _.
    apply (keeps_then _ _ _ _ (keeps_set _ _ _ I1 H0)). intros l2 I2. apply (keeps_then _ _ _ _ (keeps_put _ I2)). intros _ _. apply (keeps_then anything).
    { intros h (H1 & H2 & H3). specialize (R l2). destruct (srt l2) as [o l3]. cbn [snd fst] in *. split; [|now intros]. split; [|split; [exact H2|exact H3]]. cbn. intros x Hx. apply I2. now apply (Permutation_in _ (Permutation_sym R)). }
    intros _ _. apply (keeps_then anything). { intros h (H1 & H2 & H3). split; [|now intros]. split; [exact H1|split; [intros x []|exact H3]]. }
    intros _ _. apply (keeps_then _ _ _ _ (keeps_graham_loop _ _)). intros top _. apply (keeps_then _ _ _ _ keeps_input). intros l4 I4.
    assert (I5 : incl (py_del_from l4 (top + 1)) G) by (destruct (del_prefix l4 (top + 1)) as [d D]; intros x Hx; apply I4; rewrite D; apply in_or_app; now left).
    apply (keeps_then _ _ _ _ (keeps_put _ I5)). intros _ _. apply (keeps_then _ _ _ _ keeps_input). intros l5 I6. apply (keeps_then _ _ _ _ (keeps_all_edges _ I6)). intros _ _. apply (keeps_then _ _ _ _ (keeps_get _ _ I6)). intros f Hf. apply (keeps_then _ _ _ _ (keeps_get _ _ I6)). intros g Hg. now apply keeps_edge.
  Qed.
  Lemma keeps_call srt c : rearranging srt -> incl (given c) G -> keeps anything (st_hull_call srt c).
  Proof.
    intros R I. destruct c as [ps| | |[]]; cbn [st_hull_call given] in *.
    - intros h (H1 & H2 & H3). split; [|now intros]. split; [|now split]. cbn. now apply incl_app.
    - intros h (H1 & H2 & H3). split; [|now intros]. unfold write, ConvexHull_clear, clear_results. cbn [snd]. destruct (h_alias h); (split; [|split; [|constructor]]); intros x [].
    - apply keeps_clear.
    - now apply keeps_direct.
    - apply keeps_wrapping.
    - now apply keeps_graham.
  Qed.
End Keep.

(** C194: through any sequence of calls, some of which raise and are caught: every vertex reported is a point given,
    and every edge reported is the segment between two points given. *)
Theorem C194_edges : forall (T : Type) (N : Num T) (srt : sorting) (cs : list hull_call) (pts : list (vec T)), rearranging srt ->
  let all_given := pts ++ List.concat (map given cs) in
  let h := hull_catching srt cs (ConvexHull_init pts) in
  incl (hull_vertices h) all_given /\
  forall s, In s (h_edges h) -> exists a b, In a all_given /\ In b all_given /\ s = Segment2D_of_points a b.
Proof.
  intros T N srt cs pts R. cbv zeta. set (G := pts ++ List.concat (map given cs)).
  assert (A : forall cs0 h, incl (List.concat (map given cs0)) G -> all_from G h -> all_from G (hull_catching srt cs0 h)).
  { induction cs0 as [|c cs0 IH]; intros h I H; [exact H|]. cbn [map List.concat] in I. unfold hull_catching. cbn [fold_left]. apply IH; [intros x Hx; apply I, in_or_app; now right|]. apply (keeps_call G srt c R); [intros x Hx; apply I, in_or_app; now left|exact H]. }
  destruct (A cs (ConvexHull_init pts)) as (H1 & H2 & H3).
  - now apply incl_appr, incl_refl.
  - split; [|split; [intros x []|constructor]]. now apply incl_appl, incl_refl.
  - split; [unfold hull_vertices; destruct (h_alias _); assumption|]. intros s Hs. rewrite Forall_forall in H3. exact (H3 s Hs).
Qed.
(** with a NaN point first, the wrapping method raises IndexError after its last edge and leaves the edges, both
    with the NaN point at one end, and the starting point twice among the vertices *)
Example C194_edges_nonvacuous : let pts := [V B754_nan B754_nan; V (F_of_Z 0) (F_of_Z 0); V (F_of_Z 4) (F_of_Z 0); V (F_of_Z 4) (F_of_Z 4)] in
  let srt : @sorting F := fun l => (Ok tt, l) in
  let h := @hull_catching F (NumF libm_far) srt [CallCompute WRAPPING_METHOD] (ConvexHull_init pts) in
  rearranging srt /\ fst (@st_compute F (NumF libm_far) srt WRAPPING_METHOD (ConvexHull_init pts)) = Raise IndexError /\ List.length (h_edges h) = 2%nat /\ List.length (hull_vertices h) = 3%nat.
Proof. cbv zeta. split; [intros l; apply Permutation_refl|]. vm_compute. repeat split; reflexivity. Qed.
