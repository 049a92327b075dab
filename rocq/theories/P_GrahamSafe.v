(** * P_GrahamSafe: on which inputs the Graham scan raises (C177) *)
From Coq Require Import ZArith List Bool Reals Lra Lia Permutation.
From Flocq Require Import Core BinarySingleNaN.
From Verif Require Import Base Types NumR NumF R_Tac Spec Spec2 Abs M_Vector M_Line M_Segment M_Triangle M_Polygon M_Hull
  L_Angle L_Seg P_Vector P_Hull P_Hull2 P_Hull3 P_Hull4 P_Graham L_Float P_Robust P_VecF P_LineF P_HullF P_GrahamF P_TrigF P_DistF P_RayF P_SafeF.
Import ListNotations.
Local Open Scope R_scope.

(** list.sort with some comparison: given the points in any order it returns some arrangement of them *)
Definition rearranges {T} (sorter : list (vec T) -> res (list (vec T))) (pts : list (vec T)) : Prop :=
  forall l, Permutation l pts -> exists l', sorter l = Ok l' /\ Permutation l l'.

Section Scan.
  Context {T : Type} `{Num T}.
  Local Open Scope Z_scope.

  Lemma py_get_range {A} (l : list A) i : - Z.of_nat (List.length l) <= i < Z.of_nat (List.length l) -> exists a, py_get l i = Ok a /\ In a l.
  Proof.
    intros R. unfold py_get, py_index. destruct (Z.ltb_spec i 0).
    - rewrite (proj2 (Z.leb_le _ _)), (proj2 (Z.ltb_lt _ _)) by lia. cbn [andb]. destruct (nth_error l (Z.to_nat (i + Z.of_nat (List.length l)))) eqn:E; [eexists; split; [reflexivity|now apply nth_error_In in E]|]. apply nth_error_None in E. lia.
    - rewrite (proj2 (Z.leb_le _ _)), (proj2 (Z.ltb_lt _ _)) by lia. cbn [andb]. destruct (nth_error l (Z.to_nat i)) eqn:E; [eexists; split; [reflexivity|now apply nth_error_In in E]|]. apply nth_error_None in E. lia.
  Qed.
  Lemma py_get_low {A} (l : list A) i : i < - Z.of_nat (List.length l) -> py_get l i = Raise IndexError.
  Proof. intros R. unfold py_get, py_index. destruct (Z.ltb_spec i 0); [|lia]. rewrite (proj2 (Z.leb_gt _ _)) by lia. reflexivity. Qed.
  Lemma py_get_cases {A} (l : list A) i : (exists a, py_get l i = Ok a /\ In a l) \/ py_get l i = Raise IndexError.
  Proof.
    unfold py_get. destruct (py_index l i) as [j|]; [|now right]. destruct (nth_error l j) eqn:E; [left|now right]. eexists. split; [reflexivity|now apply nth_error_In in E].
  Qed.
  Lemma py_set_range {A} (l : list A) i a : - Z.of_nat (List.length l) <= i < Z.of_nat (List.length l) -> exists l', py_set l i a = Ok l' /\ List.length l' = List.length l.
  Proof.
    intros R. unfold py_set, py_index. destruct (Z.ltb_spec i 0); rewrite (proj2 (Z.leb_le _ _)), (proj2 (Z.ltb_lt _ _)) by lia; cbn [andb]; eexists; (split; [reflexivity|apply list_set_length]).
  Qed.
  Lemma py_set_cases {A} (l : list A) i a : (exists l', py_set l i a = Ok l' /\ List.length l' = List.length l) \/ py_set l i a = Raise IndexError.
  Proof. unfold py_set. destruct (py_index l i); [left; eexists; split; [reflexivity|apply list_set_length]|now right]. Qed.
  (** the elements at i - n and i + 1 - n are neighbours, and different if the list has no duplicates *)
  Lemma py_get_back {A} (l : list A) (i : nat) p : py_get l (Z.of_nat i) = Ok p -> py_get l (Z.of_nat i - Z.of_nat (List.length l)) = Ok p.
  Proof.
    unfold py_get, py_index. destruct (Z.ltb_spec (Z.of_nat i) 0); [lia|]. destruct (Z.ltb_spec (Z.of_nat i) (Z.of_nat (List.length l))) as [L|L]; [|rewrite andb_false_r; discriminate].
    destruct (Z.ltb_spec (Z.of_nat i - Z.of_nat (List.length l)) 0); [|lia]. replace (Z.of_nat i - Z.of_nat (List.length l) + Z.of_nat (List.length l)) with (Z.of_nat i) by lia.
    rewrite (proj2 (Z.ltb_lt _ _)) by lia. easy.
  Qed.
  Lemma neighbour_ne {A} (l : list A) (i : nat) p b : NoDup l -> (2 <= List.length l)%nat -> (i < List.length l)%nat -> py_get l (Z.of_nat i) = Ok p -> py_get l (Z.of_nat i + 1 - Z.of_nat (List.length l)) = Ok b -> p <> b.
  Proof.
    intros ND N2 Hi P B E. subst b.
    assert (G : forall j, (j < List.length l)%nat -> py_get l (Z.of_nat j) = Ok p -> nth_error l j = Some p).
    { intros j Hj. unfold py_get, py_index. destruct (Z.ltb_spec (Z.of_nat j) 0); [lia|]. rewrite (proj2 (Z.leb_le _ _)), (proj2 (Z.ltb_lt _ _)) by lia. cbn [andb]. rewrite Nat2Z.id. destruct (nth_error l j); [|discriminate]. now intros [= ->]. }
    apply G in P; [|exact Hi]. destruct (Nat.eq_dec (S i) (List.length l)) as [EN|EN].
    - replace (Z.of_nat i + 1 - Z.of_nat (List.length l)) with (Z.of_nat 0) in B by lia. apply G in B; [|lia].
      assert (i = 0%nat) by (apply (proj1 (NoDup_nth_error l) ND); [exact Hi|now rewrite P, B]). lia.
    - replace (Z.of_nat i + 1 - Z.of_nat (List.length l)) with (Z.of_nat (S i) - Z.of_nat (List.length l)) in B by lia.
      assert (B' : nth_error l (S i) = Some p).
      { unfold py_get, py_index in B. destruct (Z.ltb_spec (Z.of_nat (S i) - Z.of_nat (List.length l)) 0); [|lia]. replace (Z.of_nat (S i) - Z.of_nat (List.length l) + Z.of_nat (List.length l)) with (Z.of_nat (S i)) in B by lia.
        rewrite (proj2 (Z.leb_le _ _)), (proj2 (Z.ltb_lt _ _)) in B by lia. cbn [andb] in B. rewrite Nat2Z.id in B. destruct (nth_error l (S i)); [|discriminate]. now injection B as ->. }
      assert (S i = i) by (apply (proj1 (NoDup_nth_error l) ND); [lia|now rewrite P, B']). lia.
  Qed.

  (** the test of the inner loop never raises on these points *)
  Definition decided (l : list (vec T)) : Prop := forall a b c, In a l -> In b l -> In c l -> exists r, hull_is_clockwise a b c = Ok r.
  (** ... and stops at two different neighbours the first of which is the new point *)
  Definition stops (l : list (vec T)) : Prop := forall p b, In p l -> In b l -> p <> b -> hull_is_clockwise p b p = Ok true.
  Lemma decided_perm l l' : Permutation l' l -> decided l -> decided l'.
  Proof. intros P D a b c A B C. apply D; now apply (Permutation_in _ P). Qed.
  Lemma stops_perm l l' : Permutation l' l -> stops l -> stops l'.
  Proof. intros P D a b A B. apply D; now apply (Permutation_in _ P). Qed.

  Lemma pop_found fuel : forall l (i : nat) p top, decided l -> stops l -> NoDup l -> (2 <= List.length l)%nat -> (i < List.length l)%nat -> py_get l (Z.of_nat i) = Ok p ->
    let lo := Z.of_nat i + 1 - Z.of_nat (List.length l) in lo <= top < Z.of_nat (List.length l) -> top - lo < Z.of_nat fuel ->
    exists t, graham_pop fuel l p top = Ok t /\ lo <= t <= top.
  Proof.
    induction fuel as [|fuel IH]; intros l i p top D S ND N2 Hi P lo R FU; [lia|]. cbn [graham_pop].
    destruct (py_get_range l (top - 1) ltac:(unfold lo in *; lia)) as (a & A & IA). destruct (py_get_range l top ltac:(unfold lo in *; lia)) as (b & B & IB). rewrite A, B. cbn [bind].
    assert (IP : In p l). { destruct (py_get_range l (Z.of_nat i) ltac:(lia)) as (p' & P' & IP). rewrite P in P'. injection P' as ->. exact IP. }
    destruct (D a b p IA IB IP) as [r Er]. rewrite Er. cbn [bind]. destruct r; [exists top; split; [reflexivity|lia]|].
    destruct (Z.eq_dec top lo) as [E|E].
    - exfalso. subst top. assert (EA : a = p). { apply py_get_back in P. unfold lo in A. replace (Z.of_nat i + 1 - Z.of_nat (List.length l) - 1) with (Z.of_nat i - Z.of_nat (List.length l)) in A by lia. rewrite P in A. now injection A. }
      subst a. rewrite (S p b IP IB) in Er; [discriminate|]. exact (neighbour_ne l i p b ND N2 Hi P B).
    - destruct (IH l i p (top - 1) D S ND N2 Hi P ltac:(fold lo; lia) ltac:(fold lo; lia)) as (t & -> & Ht). exists t. split; [reflexivity|]. fold lo in Ht. lia.
  Qed.
  Lemma loop_found m : forall i l top, decided l -> stops l -> NoDup l -> (2 <= List.length l)%nat -> (i + m = List.length l)%nat ->
    Z.of_nat i + 1 - Z.of_nat (List.length l) <= top <= Z.of_nat i - 1 ->
    exists l' t, graham_loop (seq i m) l top = Ok (l', t) /\ Permutation l' l /\ 1 <= t <= Z.of_nat (List.length l) - 1.
  Proof.
    induction m as [|m IH]; intros i l top D S ND N2 HL R; cbn [seq graham_loop].
    - exists l, top. split; [reflexivity|]. split; [reflexivity|]. lia.
    - destruct (py_get_range l (Z.of_nat i) ltac:(lia)) as (p & P & IP). rewrite P. cbn [bind].
      destruct (pop_found (2 * List.length l + 3) l i p top D S ND N2 ltac:(lia) P ltac:(lia) ltac:(lia)) as (t & -> & Ht). cbn [bind].
      destruct (py_get_range l (t + 1) ltac:(lia)) as (tmp & E3 & _). rewrite E3. cbn [bind].
      destruct (py_set_range l (t + 1) p ltac:(lia)) as (l1 & E5 & L1). rewrite E5. cbn [bind].
      destruct (py_set_range l1 (Z.of_nat i) tmp ltac:(lia)) as (l2 & E6 & L2). rewrite E6. cbn [bind].
      assert (PM : Permutation l2 l) by (apply (py_swap_perm _ _ _ _ _ _ _ E3 P E5 E6)).
      destruct (IH (Datatypes.S i) l2 (t + 1)) as (l' & t' & E & P' & Ht'); [now apply (decided_perm l)|now apply (stops_perm l)|now apply (Permutation_NoDup (Permutation_sym PM))|lia|lia|rewrite L2, L1; lia|].
      exists l', t'. split; [exact E|]. split; [now transitivity l2|lia].
  Qed.

  (** the scan on the stored list *)
  Lemma setup (pts : list (vec T)) : (1 <= List.length pts)%nat -> exists mi p0 pm l1 l2, get_min_point_index pts = Some mi /\ py_get pts 0 = Ok p0 /\ py_get pts (Z.of_nat mi) = Ok pm /\ py_set pts 0 pm = Ok l1 /\ py_set l1 (Z.of_nat mi) p0 = Ok l2 /\ Permutation l2 pts.
  Proof.
    intros N. destruct pts as [|q pts'] eqn:EP; [cbn in N; lia|]. rewrite <- EP in *.
    assert (M : forall l i mp mi, (i + List.length l = List.length pts)%nat -> (mi < List.length pts)%nat -> (min_loop l i mp mi < List.length pts)%nat).
    { clear. induction l as [|p l IH]; intros i mp mi HL HM; cbn [min_loop]; [exact HM|]. cbn [List.length] in HL. destruct (_ || _); apply IH; lia. }
    specialize (M pts 0%nat q 0%nat eq_refl ltac:(lia)). set (mi := min_loop pts 0 q 0) in *. exists mi.
    destruct (py_get_range pts 0 ltac:(lia)) as (p0 & E1 & _). destruct (py_get_range pts (Z.of_nat mi) ltac:(lia)) as (pm & E2 & _).
    destruct (py_set_range pts 0 pm ltac:(lia)) as (l1 & E3 & L1). destruct (py_set_range l1 (Z.of_nat mi) p0 ltac:(lia)) as (l2 & E4 & _).
    exists p0, pm, l1, l2. split; [unfold mi; rewrite EP; reflexivity|]. split; [exact E1|]. split; [exact E2|]. split; [exact E3|]. split; [exact E4|]. apply (py_swap_perm _ _ _ _ _ _ _ E1 E2 E3 E4).
  Qed.
  Lemma scan_found sorter (pts : list (vec T)) : rearranges sorter pts -> (3 <= List.length pts)%nat -> NoDup pts -> decided pts -> stops pts -> (forall v, In v pts -> Vector2D_eq v v = true) ->
    exists h, ConvexHull_compute sorter GRAHAN_SCAN (ConvexHull_init pts) = Ok h /\ (2 <= List.length (hull_vertices h) <= List.length pts)%nat /\ incl (hull_vertices h) pts.
  Proof.
    intros SO N ND D S VE. cbn [ConvexHull_compute]. unfold compute_graham_scan. change (h_input (clear_results (ConvexHull_init pts))) with pts.
    destruct (setup pts ltac:(lia)) as (mi & p0 & pm & l1 & l2 & -> & -> & E2 & E3 & E4 & PM). destruct (Nat.ltb_spec (List.length pts) 3); [lia|]. cbn [bind]. rewrite E2. cbn [bind]. rewrite E3. cbn [bind]. rewrite E4. cbn [bind].
    destruct (SO l2 PM) as (l3 & -> & P3). cbn [bind]. assert (P3' : Permutation l3 pts) by (now rewrite <- P3). assert (L3 := Permutation_length P3').
    destruct (loop_found (List.length pts - 2) 2 l3 1) as (l4 & t & -> & P4 & Ht); [now apply (decided_perm pts)|now apply (stops_perm pts)|now apply (Permutation_NoDup (Permutation_sym P3'))|lia|lia|lia|]. cbn [bind].
    assert (P4' : Permutation l4 pts) by (now transitivity l3). assert (L4 := Permutation_length P4'). rewrite L3 in Ht.
    set (l5 := py_del_from l4 (t + 1)). assert (E5 : l5 = firstn (Z.to_nat (t + 1)) l4). { unfold l5, py_del_from. destruct (Z.ltb_spec (t + 1) 0); [lia|reflexivity]. }
    assert (L5 : List.length l5 = Z.to_nat (t + 1)) by (rewrite E5; apply firstn_length_le; lia).
    assert (I5 : incl l5 pts). { intros v Hv. apply (Permutation_in _ P4'). rewrite E5 in Hv. rewrite <- (firstn_skipn (Z.to_nat (t + 1)) l4). apply in_or_app. now left. }
    clearbody l5. destruct l5 as [|a l5]; [cbn in L5; lia|]. rewrite build_edges_gen. 2:{ apply VE, I5. apply last_in. }
    cbn [bind]. destruct (py_get_range (a :: l5) 0 ltac:(lia)) as (f & -> & _). destruct (py_get_range (a :: l5) (-1) ltac:(lia)) as (z & -> & _). cbn [bind].
    eexists. split; [reflexivity|]. unfold hull_vertices. cbn [h_alias h_input]. split; [lia|exact I5].
  Qed.

  (** without any condition on the points: it ends, and the only exception is IndexError *)
  Definition ends {A} (r : res A) : Prop := (exists x, r = Ok x) \/ r = Raise IndexError.
  Lemma ends_bind {A B} (r : res A) (f : A -> res B) : ends r -> (forall x, r = Ok x -> ends (f x)) -> ends (bind r f).
  Proof. intros [[x E]|E] K; rewrite E; cbn [bind]; [now apply K|now right]. Qed.
  Lemma ends_get {A} (l : list A) i : ends (py_get l i).
  Proof. destruct (py_get_cases l i) as [(a & E & _)|E]; [left; eauto|now right]. Qed.
  Lemma ends_set {A} (l : list A) i a : ends (py_set l i a).
  Proof. destruct (py_set_cases l i a) as [(l' & E & _)|E]; [left; eauto|now right]. Qed.
  Lemma ends_pop fuel : forall l p top, decided l -> In p l -> top < Z.of_nat (List.length l) -> (1 <= fuel)%nat -> top + Z.of_nat (List.length l) < Z.of_nat fuel ->
    ends (graham_pop fuel l p top) /\ forall t, graham_pop fuel l p top = Ok t -> t <= top.
  Proof.
    induction fuel as [|fuel IH]; intros l p top D IP R F1 FU; [lia|].
    cbn [graham_pop]. destruct (py_get_cases l (top - 1)) as [(a & A & IA)|A]; rewrite A; cbn [bind]; [|split; [now right|discriminate]].
      destruct (py_get_cases l top) as [(b & B & IB)|B]; rewrite B; cbn [bind]; [|split; [now right|discriminate]].
      destruct (D a b p IA IB IP) as [r Er]. rewrite Er. cbn [bind]. destruct r; [split; [left; eauto|intros t [= <-]; lia]|].
      destruct (Z_lt_ge_dec (top - 1) (- Z.of_nat (List.length l))) as [LW|LW]; [rewrite (py_get_low l (top - 1) LW) in A; discriminate|].
      destruct (IH l p (top - 1) D IP ltac:(lia) ltac:(lia) ltac:(lia)) as [E1 E2]. split; [exact E1|]. intros t Et. apply E2 in Et. lia.
  Qed.
  Lemma ends_loop m : forall i l top, decided l -> (i + m = List.length l)%nat -> top <= Z.of_nat i - 1 -> ends (graham_loop (seq i m) l top).
  Proof.
    induction m as [|m IH]; intros i l top D HL R; cbn [seq graham_loop]; [left; eauto|].
    destruct (py_get_cases l (Z.of_nat i)) as [(p & P & IP)|P]; rewrite P; cbn [bind]; [|now right].
    destruct (ends_pop (2 * List.length l + 3) l p top D IP ltac:(lia) ltac:(lia) ltac:(lia)) as [[[t Et]|Et] Lt]; rewrite Et; cbn [bind]; [|now right]. specialize (Lt t Et).
    destruct (py_get_cases l (t + 1)) as [(tmp & E3 & _)|E3]; rewrite E3; cbn [bind]; [|now right].
    destruct (py_set_cases l (t + 1) p) as [(l1 & E5 & L1)|E5]; rewrite E5; cbn [bind]; [|now right].
    destruct (py_set_cases l1 (Z.of_nat i) tmp) as [(l2 & E6 & L2)|E6]; rewrite E6; cbn [bind]; [|now right].
    assert (PM : Permutation l2 l) by (apply (py_swap_perm _ _ _ _ _ _ _ E3 P E5 E6)).
    apply IH; [now apply (decided_perm l)|lia|lia].
  Qed.
  Lemma ends_edges (vs : list (vec T)) : ends (build_edges vs).
  Proof.
    unfold build_edges. destruct (rev vs) as [|z r]; [left; eauto|].
    assert (G : forall is acc, ends acc -> ends (fold_left (fun acc i => bind acc (fun es => bind (py_get vs (Z.of_nat i)) (fun v => if negb (Vector2D_eq v z) then bind (py_get vs (Z.of_nat (S i))) (fun w => Ok (es ++ [Segment2D_of_points v w])) else Ok es))) is acc)).
    { induction is as [|i is IH]; intros acc A; cbn [fold_left]; [exact A|]. apply IH. apply ends_bind; [exact A|]. intros es _. apply ends_bind; [apply ends_get|]. intros v _. destruct (negb _); [|left; eauto]. apply ends_bind; [apply ends_get|]. intros w _. left; eauto. }
    apply G. left; eauto.
  Qed.
  Lemma scan_ends sorter (h : hull T) : rearranges sorter (h_input h) -> decided (h_input h) -> ends (ConvexHull_compute sorter GRAHAN_SCAN h).
  Proof.
    intros SO D. cbn [ConvexHull_compute]. unfold compute_graham_scan. set (h0 := clear_results h).
    assert (C : h_input h0 = [] \/ h_input h0 = h_input h) by (unfold h0, clear_results; destruct (h_alias h); auto). clearbody h0. destruct C as [-> |C]; [left; eexists; reflexivity|]. rewrite <- C in SO, D. set (pts := h_input h0) in *.
    destruct (get_min_point_index pts) as [mi'|] eqn:EM; [|left; eauto]. destruct (Nat.ltb_spec (List.length pts) 3) as [N|N]; [left; eauto|].
    destruct (setup pts ltac:(lia)) as (mi & p0 & pm & l1 & l2 & EM' & E1 & E2 & E3 & E4 & PM). rewrite EM in EM'. injection EM' as ->. rewrite E1. cbn [bind]. rewrite E2. cbn [bind]. rewrite E3. cbn [bind]. rewrite E4. cbn [bind].
    destruct (SO l2 PM) as (l3 & -> & P3). cbn [bind]. assert (P3' : Permutation l3 pts) by (now rewrite <- P3). assert (L3 := Permutation_length P3').
    apply ends_bind; [apply ends_loop; [now apply (decided_perm pts)|lia|lia]|]. intros [l4 t] _. apply ends_bind; [apply ends_edges|]. intros es _. apply ends_bind; [apply ends_get|]. intros f _. apply ends_bind; [apply ends_get|]. intros z _. left; eauto.
  Qed.
  (** copies of one point: the inner loop runs off the list *)
  Lemma pop_copies fuel : forall n p top, hull_is_clockwise p p p = Ok false -> top < Z.of_nat n -> (1 <= fuel)%nat -> top + Z.of_nat n < Z.of_nat fuel -> graham_pop fuel (repeat p n) p top = Raise IndexError.
  Proof.
    induction fuel as [|fuel IH]; intros n p top C R F1 FU; [lia|]. cbn [graham_pop].
    assert (G : forall i, py_get (repeat p n) i = Ok p \/ py_get (repeat p n) i = Raise IndexError).
    { intros i. destruct (py_get_cases (repeat p n) i) as [(a & E & I)|E]; [left|now right]. apply repeat_spec in I. now subst. }
    destruct (G (top - 1)) as [A|A]; rewrite A; cbn [bind]; [|reflexivity]. destruct (G top) as [B|B]; rewrite B; cbn [bind]; [|reflexivity]. rewrite C. cbn [bind].
    destruct (Z_lt_ge_dec (top - 1) (- Z.of_nat n)) as [LW|LW]; [rewrite py_get_low in A by (rewrite repeat_length; lia); discriminate|].
    apply IH; try assumption; lia.
  Qed.
  Lemma scan_copies sorter p n : rearranges sorter (repeat p n) -> (3 <= n)%nat -> hull_is_clockwise p p p = Ok false -> ConvexHull_compute sorter GRAHAN_SCAN (ConvexHull_init (repeat p n)) = Raise IndexError.
  Proof.
    intros SO N C. cbn [ConvexHull_compute]. unfold compute_graham_scan. change (h_input (clear_results (ConvexHull_init (repeat p n)))) with (repeat p n).
    assert (L := repeat_length p n). destruct (setup (repeat p n) ltac:(lia)) as (mi & p0 & pm & l1 & l2 & -> & -> & E2 & E3 & E4 & PM). destruct (Nat.ltb_spec (List.length (repeat p n)) 3); [lia|]. cbn [bind]. rewrite E2. cbn [bind]. rewrite E3. cbn [bind]. rewrite E4. cbn [bind].
    destruct (SO l2 PM) as (l3 & -> & P3). cbn [bind]. assert (P3' : Permutation l3 (repeat p n)) by (now rewrite <- P3).
    assert (E : l3 = repeat p n). { rewrite <- (repeat_length p n) at 1. rewrite <- (Permutation_length P3'). clear - P3'. assert (A : forall x, In x l3 -> x = p) by (intros x I; apply (Permutation_in _ P3') in I; now apply repeat_spec in I). clear P3'. induction l3 as [|x l IH]; [reflexivity|]. cbn [List.length repeat]. rewrite (A x) by now left. f_equal. apply IH. intros y I. apply A. now right. }
    rewrite E, L. destruct n as [|[|[|n]]]; try lia. replace (S (S (S n)) - 2)%nat with (S n) by lia. cbn [seq graham_loop].
    assert (G : py_get (repeat p (S (S (S n)))) (Z.of_nat 2) = Ok p). { destruct (py_get_range (repeat p (S (S (S n)))) (Z.of_nat 2) ltac:(rewrite repeat_length; lia)) as (a & A & I). apply repeat_spec in I. now subst. }
    rewrite G. cbn [bind]. rewrite pop_copies; [reflexivity|exact C|lia|lia|rewrite repeat_length; lia].
  Qed.
End Scan.

Lemma decided_R (l : list (vec R)) : decided l.
Proof. intros a b c _ _ _. unfold hull_is_clockwise. rewrite !dist2_R. cbn [bind]. repeat destruct (nltb _ _); eauto. Qed.
Lemma decided_F L (l : list (vec F)) : pow_sane L -> Forall (vtame 500) l -> @decided F (NumF L) l.
Proof.
  intros PS W a b c A B C. rewrite Forall_forall in W. unfold hull_is_clockwise. destruct (dist2_gives L a b PS (W a A) (W b B)) as (d1 & -> & _). destruct (dist2_gives L a c PS (W a A) (W c C)) as (d2 & -> & _). cbn [bind].
  repeat destruct (nltb _ _); eauto.
Qed.
Lemma zero_tests0 L (ar : F) : is_finite ar = true -> B2R ar = 0 -> @nltb F (NumF L) ar (@nlit F (NumF L) 0 1) = false /\ @nltb F (NumF L) ar (@EPSILON F (NumF L)) = true.
Proof.
  intros E1 E2. change (@nlit F (NumF L) 0 1) with (F_of_Z 0). destruct (F_of_Z_exact 0 eq_refl) as [Z1 Z2]. destruct (P_LineF.eps_F L) as [P1 P2].
  cbn [nltb NumF]. rewrite !ltb_F by assumption. rewrite E2, Z1. split; [apply Rlt_bool_false|apply Rlt_bool_true]; lra.
Qed.

(** ** C177: when the Graham scan raises *)
(** Distinct points: it always returns, with at least two vertices, however they
    lie and in whatever order list.sort leaves them. *)
Theorem C177_distinct_R : forall (pts : list (vec R)) sorter, rearranges sorter pts -> (3 <= List.length pts)%nat -> NoDup (map pt pts) ->
  exists h, ConvexHull_compute sorter GRAHAN_SCAN (ConvexHull_init pts) = Ok h /\ (2 <= List.length (hull_vertices h) <= List.length pts)%nat /\ incl (hull_vertices h) pts.
Proof.
  intros pts sorter SO N ND. apply scan_found; [exact SO|exact N|now apply NoDup_map_inv in ND| | |].
  - apply decided_R.
  - intros p b IP IB NE. unfold hull_is_clockwise. rewrite !dist2_R. cbn [bind].
    assert (NP : pt p <> pt b). { intros E. apply NE. clear - ND IP IB E. induction pts as [|x l IH]; [easy|]. cbn [map] in ND. inversion ND as [|? ? NI ND']; subst. destruct IP as [-> |IP], IB as [-> |IB]; [reflexivity| | |now apply IH]. - exfalso. apply NI. rewrite E. now apply in_map. - exfalso. apply NI. rewrite <- E. now apply in_map. }
    assert (P : 0 < norm2 (psub (pt p) (pt b))). { destruct (norm2_nonneg (psub (pt p) (pt b))) as [K|K]; [exact K|]. exfalso. apply NP. symmetry in K. now apply psub_zero. }
    unfold double_signed_area_st, EPSILON. rnum. replace ((vx p - vx p) * (vy b - vy p) + (vx b - vx p) * (vy p - vy p)) with 0 by ring.
    rewrite (Rlt_bool_false 0 0), (Rlt_bool_true 0) by lra. rewrite Rlt_bool_true; [reflexivity|]. replace (norm2 (psub (pt p) (pt p))) with 0; [exact P|]. unfold norm2, psub, px, py. cbn [fst snd]. ring.
  - intros v _. unfold Vector2D_eq. rnum. rewrite !Req_bool_true by reflexivity. reflexivity.
Qed.

(** The same in doubles, for points that are not so close that the square of their distance vanishes. *)
Theorem C177_distinct_F : forall (L : libm) (k : Z) (pts : list (vec F)) sorter, pow_accurate L -> (-500 <= k <= 450)%Z -> rearranges sorter pts ->
  (3 <= List.length pts)%nat -> Forall (within k) pts -> NoDup (map fpt pts) ->
  (forall p q, In p pts -> In q pts -> fpt p <> fpt q -> bpow radix2 (-480) <= edist (fpt p) (fpt q)) ->
  exists h, @ConvexHull_compute F (NumF L) sorter GRAHAN_SCAN (ConvexHull_init pts) = Ok h /\ (2 <= List.length (hull_vertices h) <= List.length pts)%nat /\ incl (hull_vertices h) pts.
Proof.
  intros L k pts sorter PA Hk SO N W ND SEP. rewrite Forall_forall in W.
  assert (DA : forall a b, In a pts -> In b pts -> exists q : F, @Vector2D_dist2 F (NumF L) a b = Ok q /\ is_finite q = true /\ (fpt a <> fpt b -> 0 < B2R q)).
  { intros a b A B. pose proof (W a A) as WA. pose proof (W b B) as WB. pose proof WA as (A1 & A2 & _). pose proof WB as (B1 & B2 & _). pose proof (edist_up k a b WA WB) as U1. assert (U3 : bpow radix2 (k + 2) <= bpow radix2 500) by (apply bpow_le; lia).
    destruct (dist2_abs L a b PA A1 A2 B1 B2) as (q & Q1 & Q2 & Q3). { rewrite edist_fpt. lra. }
    exists q. split; [exact Q1|]. split; [exact Q2|]. intros NE. specialize (SEP a b A B NE). rewrite edist_fpt in Q3. set (D := edist (fpt a) (fpt b)) in *.
    assert (D2 : bpow radix2 (-960) <= D * D). { change (-960)%Z with (-480 + -480)%Z. rewrite bpow_plus. pose proof (bpow_gt_0 radix2 (-480)). nra. }
    assert (TT : bpow radix2 (-1070) <= bpow radix2 (-960) * / 4). { change (/ 4) with (bpow radix2 (-2)). rewrite <- bpow_plus. apply bpow_le. lia. }
    pose proof (bpow_gt_0 radix2 (-960)). assert (UU : 6 * u <= / 4) by (cbn; lra). apply Rabs_le_inv in Q3. nra. }
  assert (PNE : forall p b, In p pts -> In b pts -> p <> b -> fpt p <> fpt b).
  { intros p b IP IB NE E. apply NE. clear - ND IP IB E. induction pts as [|x l IH]; [easy|]. cbn [map] in ND. inversion ND as [|? ? NI ND']; subst. destruct IP as [-> |IP], IB as [-> |IB]; [reflexivity| | |now apply IH].
    - exfalso. apply NI. rewrite E. now apply in_map. - exfalso. apply NI. rewrite <- E. now apply in_map. }
  apply scan_found; [exact SO|exact N|now apply NoDup_map_inv in ND| | |].
  - intros a b c A B C. unfold hull_is_clockwise. destruct (DA a b A B) as (q & -> & _). destruct (DA a c A C) as (q' & -> & _). cbn [bind]. repeat destruct (nltb _ _); eauto.
  - intros p b IP IB NE. unfold hull_is_clockwise. destruct (area_deg L k p b p ltac:(lia) (W p IP) (W b IB) (W p IP) ltac:(auto)) as [D1 D2]. destruct (zero_tests0 L _ D1 D2) as [-> ->].
    destruct (DA p b IP IB) as (q & -> & Q1 & Q2). pose proof (W p IP) as (P1 & P2 & _). destruct (dist2_zero L p p PA (conj P1 P2) (conj P1 P2) eq_refl) as (z & -> & Z1 & Z2). cbn [bind]. cbn [nltb NumF]. rewrite ltb_F by assumption. rewrite Rlt_bool_true; [reflexivity|]. rewrite Z2. apply Q2. now apply PNE.
  - intros v IV. pose proof (W v IV) as (P1 & P2 & _). unfold Vector2D_eq. cbn [neqb NumF]. rewrite !eqb_F by assumption. rewrite !Req_bool_true by reflexivity. reflexivity.
Qed.

(** Any points at all, from any state of the object: the scan ends, and IndexError is the only exception. *)
Theorem C177_ends_R : forall (h : hull R) sorter, rearranges sorter (h_input h) ->
  (exists h', ConvexHull_compute sorter GRAHAN_SCAN h = Ok h') \/ ConvexHull_compute sorter GRAHAN_SCAN h = Raise IndexError.
Proof. intros h sorter SO. apply scan_ends; [exact SO|apply decided_R]. Qed.
Theorem C177_ends_F : forall (L : libm) (h : hull F) sorter, pow_sane L -> Forall (vtame 500) (h_input h) -> rearranges sorter (h_input h) ->
  (exists h', @ConvexHull_compute F (NumF L) sorter GRAHAN_SCAN h = Ok h') \/ @ConvexHull_compute F (NumF L) sorter GRAHAN_SCAN h = Raise IndexError.
Proof. intros L h sorter PS W SO. apply scan_ends; [exact SO|now apply decided_F]. Qed.

(** Three or more copies of one point always raise. *)
Theorem C177_copies_raise_R : forall (p : vec R) (n : nat) sorter, rearranges sorter (repeat p n) -> (3 <= n)%nat ->
  ConvexHull_compute sorter GRAHAN_SCAN (ConvexHull_init (repeat p n)) = Raise IndexError.
Proof.
  intros p n sorter SO N. apply scan_copies; [exact SO|exact N|]. unfold hull_is_clockwise. rewrite !dist2_R. cbn [bind]. unfold double_signed_area_st, EPSILON. rnum. replace (_ + _) with 0 by ring.
  rewrite (Rlt_bool_false 0 0), (Rlt_bool_true 0) by lra. now rewrite Rlt_bool_false by lra.
Qed.

Theorem C177_copies_raise_F : forall (L : libm) (k : Z) (p : vec F) (n : nat) sorter, pow_accurate L -> (-500 <= k <= 450)%Z -> within k p -> rearranges sorter (repeat p n) -> (3 <= n)%nat ->
  @ConvexHull_compute F (NumF L) sorter GRAHAN_SCAN (ConvexHull_init (repeat p n)) = Raise IndexError.
Proof.
  intros L k p n sorter PA Hk W SO N. apply scan_copies; [exact SO|exact N|]. unfold hull_is_clockwise. destruct (area_deg L k p p p ltac:(lia) W W W ltac:(auto)) as [D1 D2]. destruct (zero_tests0 L _ D1 D2) as [-> ->].
  pose proof W as (P1 & P2 & _). destruct (dist2_zero L p p PA (conj P1 P2) (conj P1 P2) eq_refl) as (z & -> & Z1 & Z2). cbn [bind]. cbn [nltb NumF]. rewrite ltb_F by assumption. rewrite Rlt_bool_false by lra. reflexivity.
Qed.

(** list.sort with the library's comparison is such a sort (lists of fewer than 64 points). *)
Theorem C177_python_sort : (forall pts : list (vec R), rearranges (py_sort_small angle_lt) pts) /\
  (forall (L : libm) (pts : list (vec F)), pow_sane L -> Forall (vtame 500) pts -> rearranges (@py_sort_small F (@angle_lt F (NumF L))) pts).
Proof.
  split.
  - intros pts l _. apply py_sort_total.
  - intros L pts PS W l P. destruct (sort_gives (vtame 500) (@angle_lt F (NumF L)) (fun x y X Y => angle_lt_ret L x y PS X Y) l) as (l' & E & _).
    { rewrite Forall_forall in *. intros v Hv. apply W. now apply (Permutation_in _ P). }
    exists l'. split; [exact E|]. now apply (py_sort_small_perm (@angle_lt F (NumF L))) in E.
Qed.
Example C177_nonvacuous : exists pts : list (vec F), (3 <= List.length pts)%nat /\ Forall (within 3) pts /\ Forall (vtame 500) pts /\ NoDup (map fpt pts) /\
  (forall p q, In p pts -> In q pts -> fpt p <> fpt q -> bpow radix2 (-480) <= edist (fpt p) (fpt q)) /\ pow_accurate libm_round /\ pow_sane libm_round.
Proof.
  exists [fv 0 0; fv 1 1; fv 2 2; fv 3 3].
  assert (W : Forall (within 3) [fv 0 0; fv 1 1; fv 2 2; fv 3 3]) by (repeat (apply Forall_cons; [apply within_fv; lia|]); apply Forall_nil).
  split; [cbn; lia|]. split; [exact W|].
  split. { eapply Forall_impl; [|exact W]. intros v (A & B & C & D). apply (vb_tame 3); [lia|]. split; split; assumption. }
  assert (FX : forall v, In v [fv 0 0; fv 1 1; fv 2 2; fv 3 3] -> exists i, (0 <= i <= 3)%Z /\ v = fv i i /\ fpt v = (IZR i, IZR i)).
  { intros v Hv. assert (K : exists i, (0 <= i <= 3)%Z /\ v = fv i i) by (cbn [In] in Hv; destruct Hv as [<- |[<- |[<- |[<- |[]]]]]; eexists; (split; [|reflexivity]); lia). destruct K as (i & Hi & ->). exists i. split; [exact Hi|]. split; [reflexivity|]. apply fpt_fv; change (2 ^ 53)%Z with 9007199254740992%Z; lia. }
  split. { cbn [map]. rewrite !fpt_fv by reflexivity. repeat (constructor; [cbn [In]; intros K; repeat (destruct K as [K|K]; [injection K as K _; apply eq_IZR in K; lia|]); exact K|]). constructor. }
  split; [|split; [exact pow_accurate_sq|exact libm_round_pow_sane]].
  intros p q P Q NE. destruct (FX p P) as (i & Hi & _ & Ep). destruct (FX q Q) as (j & Hj & _ & Eq). rewrite Ep, Eq in *.
  apply Rle_trans with 1; [change 1 with (bpow radix2 0); apply bpow_le; lia|]. eapply Rle_trans; [|apply edist_ge_x]. unfold px. cbn [fst]. rewrite <- minus_IZR, <- abs_IZR. apply IZR_le.
  assert (i <> j) by (intros ->; now apply NE). lia.
Qed.
