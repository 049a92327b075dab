(** * P_NaNHull: NaN coordinates in convex hulls (C198) *)
From Coq Require Import ZArith List Bool String Reals Lra Lia Permutation.
From Flocq Require Import Core BinarySingleNaN.
From Verif Require Import Base Types NumR NumF R_Tac Spec Abs M_Angle M_Vector M_Line M_Ray M_Triangle M_Segment M_Hull L_Float P_Float P_VecF P_SafeF P_NaN P_Hull.
Import ListNotations.
Local Open Scope R_scope.

(** What a caller sees of a computed hull: the exception, or the vertices and the edges. *)
Definition hull_seen (r : res (hull F)) : res (list (vec F) * list (seg F)) :=
  match r with Ok h => Ok (hull_vertices h, h_edges h) | Raise e => Raise e end.

Lemma find_snoc {A} (p : A -> bool) l x : find p (l ++ [x]) = match find p l with Some y => Some y | None => if p x then Some x else None end.
Proof. induction l as [|y l IH]; [reflexivity|]. cbn [app find]. destruct (p y); auto. Qed.
Lemma py_get_app {A} (l r : list A) i : (i < List.length l)%nat -> py_get (l ++ r) (Z.of_nat i) = py_get l (Z.of_nat i).
Proof.
  intros Hi. destruct (nth_error l i) as [a|] eqn:E; [|apply nth_error_None in E; lia].
  rewrite (py_get_nat _ _ a E). apply py_get_nat. now rewrite nth_error_app1.
Qed.

Section Append.
  Variables (L : libm) (pts : list (vec F)) (q : vec F).
  Hypothesis Q : vx q = B754_nan.
  Let k := List.length pts.
  Let pts' := pts ++ [q].
  Lemma nan_not_min l : forall i mp mi, @min_loop F (NumF L) (l ++ [q]) i mp mi = @min_loop F (NumF L) l i mp mi.
  Proof.
    induction l as [|p l IH]; intros i mp mi; cbn [app min_loop].
    - fops. rewrite Q. nans. reflexivity.
    - now rewrite !IH.
  Qed.
  Lemma scan_append cp cur used is : forall cand, (cand < k)%nat -> (forall i, In i is -> (i < k)%nat) ->
    @wrap_scan F (NumF L) pts' cp cur used (is ++ [k]) cand = @wrap_scan F (NumF L) pts cp cur used is cand.
  Proof.
    induction is as [|i is IH]; intros cand Hc Hi.
    - cbn [app wrap_scan]. destruct (_ || _); [reflexivity|]. unfold pts'. rewrite py_get_app by easy.
      destruct (nth_error pts cand) as [a|] eqn:E; [|apply nth_error_None in E; unfold k in Hc; lia].
      rewrite (py_get_nat _ _ a E), (py_get_nat _ _ q) by (unfold k; rewrite nth_error_app2, Nat.sub_diag by lia; reflexivity).
      cbn [bind]. rewrite (area_nan L cp a q) by (right; right; now left). cbn [nltb NumF]. now rewrite !ltb_nan_l.
    - assert (Hi' : forall j, In j is -> (j < k)%nat) by (intros; apply Hi; now right). pose proof (Hi i (or_introl eq_refl)) as Hii.
      cbn [app wrap_scan]. destruct (_ || _); [now apply IH|]. unfold pts' at 1 2. rewrite !py_get_app by easy.
      destruct (py_get pts (Z.of_nat cand)) as [a|]; [|reflexivity]. destruct (py_get pts (Z.of_nat i)) as [b|]; [|reflexivity]. cbn [bind].
      destruct (nltb _ _); [now apply IH|]. destruct (nltb _ _); [|now apply IH].
      destruct (Vector2D_dist2 cp a) as [da|]; [|reflexivity]. destruct (Vector2D_dist2 cp b) as [db|]; [|reflexivity]. cbn [bind].
      destruct (nltb _ _); now apply IH.
  Qed.
  Lemma scan_from cp cur used is : forall cand c, @wrap_scan F (NumF L) pts cp cur used is cand = Ok c -> c = cand \/ (In c is /\ avail cur used c = true).
  Proof.
    induction is as [|i is IH]; intros cand c; cbn [wrap_scan]; [intros [= <-]; auto|].
    destruct (_ || _) eqn:E; [intros H; destruct (IH _ _ H) as [|[]]; [auto|right; cbn; auto]|].
    assert (AV : avail cur used i = true) by (unfold avail; rewrite <- negb_orb, E; easy).
    destruct (py_get _ _) as [a|]; [|discriminate]. destruct (py_get _ _) as [b|]; [|discriminate]. cbn [bind].
    assert (G : forall c', c' = cand \/ c' = i -> @wrap_scan F (NumF L) pts cp cur used is c' = Ok c -> c = cand \/ (In c (i :: is) /\ avail cur used c = true)).
    { intros c' [-> | ->] H; destruct (IH _ _ H) as [K|[K1 K2]]; subst; cbn; auto. }
    destruct (nltb _ _); [apply G; auto|]. destruct (nltb _ _); [|apply G; auto].
    destruct (Vector2D_dist2 cp a) as [da|]; [|discriminate]. destruct (Vector2D_dist2 cp b) as [db|]; [|discriminate]. cbn [bind].
    apply G. destruct (nltb _ _); auto.
  Qed.
  Lemma loop_append mi : (mi < k)%nat -> (2 <= k)%nat -> forall fuel fuel' cur used verts, NoDup used -> ~ In mi used -> (forall i, In i used -> (i < k)%nat) ->
    (used = [] /\ cur = mi) \/ In cur used -> (k < fuel + List.length used)%nat -> (k < fuel' + List.length used)%nat ->
    @wrap_loop F (NumF L) fuel' pts' mi cur used verts = @wrap_loop F (NumF L) fuel pts mi cur used verts.
  Proof.
    intros Hmi Hk. induction fuel as [|fuel IH]; intros fuel' cur used verts ND NM HU HC HF HF'.
    all: assert (LE : (List.length used <= k)%nat) by (rewrite <- (seq_length k 0); apply NoDup_incl_length; [easy|]; intros i Hi; apply in_seq; specialize (HU i Hi); lia).
    - lia.
    - destruct fuel' as [|fuel']; [lia|].
      assert (Hcur : (cur < k)%nat) by (destruct HC as [[_ ->]|HC]; auto).
      cbn [wrap_loop]. unfold pts' at 1. rewrite py_get_app by easy. destruct (py_get pts (Z.of_nat cur)) as [cp|]; [|reflexivity]. cbn [bind].
      assert (LP : List.length pts' = S k) by (unfold pts'; rewrite app_length; cbn; fold k; lia). rewrite LP. fold k.
      set (av := fun i => negb (Nat.eqb i cur) && negb (existsb (Nat.eqb i) used)).
      assert (FD : exists c0, find av (seq 0 k) = Some c0).
      { destruct (find av (seq 0 k)) as [c0|] eqn:E; [eauto|]. exfalso.
        assert (AV : exists m, (m < k)%nat /\ avail cur used m = true).
        { destruct HC as [[-> ->]|HC].
          - exists (if Nat.eqb mi 0 then 1 else 0)%nat. destruct (Nat.eqb_spec mi 0); (split; [lia|]); apply avail_iff; cbn; split; auto; lia.
          - exists mi. split; [easy|]. apply avail_iff. split; [intros ->; contradiction|easy]. }
        destruct AV as (m & Hm & AV). pose proof (find_none _ _ E m ltac:(apply in_seq; lia)) as N. unfold av in N. unfold avail in AV. congruence. }
      destruct FD as (c0 & FD). pose proof (find_some _ _ FD) as [C1 C2]. apply in_seq in C1.
      assert (F1 : first_candidate k cur used = c0) by (unfold first_candidate; fold av; now rewrite FD).
      assert (F2 : first_candidate (S k) cur used = c0) by (unfold first_candidate; fold av; rewrite seq_S, find_snoc, FD; reflexivity).
      rewrite F1, F2. replace (S k - S c0)%nat with (S (k - S c0)) by lia. rewrite seq_S. replace (S c0 + (k - S c0))%nat with k by lia.
      rewrite scan_append by (try lia; intros i Hi; apply in_seq in Hi; lia).
      destruct (wrap_scan pts cp cur used _ c0) as [c|] eqn:SC; [|reflexivity]. cbn [bind].
      assert (HcK : (c < k)%nat /\ avail cur used c = true). { destruct (scan_from _ _ _ _ _ _ SC) as [->|[I A]]; [split; [lia|exact C2]|]. apply in_seq in I. split; [lia|easy]. }
      destruct HcK as [HcK AV]. apply avail_iff in AV. destruct AV as [AV1 AV2].
      unfold pts' at 1. rewrite py_get_app by easy. destruct (py_get pts (Z.of_nat c)) as [p|]; [|reflexivity]. cbn [bind].
      destruct (Nat.eqb_spec c mi) as [->|NE]; [reflexivity|].
      apply IH.
      + apply (Permutation_NoDup (Permutation_cons_append used c)). now constructor.
      + rewrite in_app_iff. cbn. intuition.
      + intros i Hi. apply in_app_iff in Hi. destruct Hi as [Hi|[<-|[]]]; auto.
      + right. apply in_app_iff. right. now left.
      + rewrite app_length. cbn. lia.
      + rewrite app_length. cbn. lia.
  Qed.
  Lemma hull_append : (3 <= k)%nat -> hull_seen (@compute_wrapping_method F (NumF L) (ConvexHull_init pts')) = hull_seen (@compute_wrapping_method F (NumF L) (ConvexHull_init pts)).
  Proof.
    intros Hk. unfold compute_wrapping_method, clear_results, ConvexHull_init. cbn [h_alias h_input].
    assert (LP : List.length pts' = S k) by (unfold pts'; rewrite app_length; cbn; fold k; lia).
    assert (ME : @get_min_point_index F (NumF L) pts' = @get_min_point_index F (NumF L) pts).
    { unfold pts'. destruct pts as [|p0 r] eqn:E; [cbn in k; lia|]. exact (f_equal Some (nan_not_min (p0 :: r) 0 p0 0)). }
    rewrite ME, LP. fold k. destruct (get_min_point_index pts) as [mi|] eqn:EM; [|reflexivity].
    rewrite (proj2 (Nat.ltb_ge k 3)), (proj2 (Nat.ltb_ge (S k) 3)) by lia.
    assert (Hmi : (mi < k)%nat).
    { unfold get_min_point_index in EM. destruct pts as [|p0 r] eqn:E; [discriminate|]. assert (ES : mi = @min_loop F (NumF L) (p0 :: r) 0 p0 0) by congruence. rewrite ES.
      assert (G : forall l i mp m, (m < k)%nat -> (i + List.length l <= k)%nat -> (@min_loop F (NumF L) l i mp m < k)%nat).
      { induction l as [|a l IHl]; intros i mp m Hm Hl; cbn [min_loop]; [easy|]. cbn [List.length] in Hl. match goal with |- context[if ?b then _ else _] => destruct b end; apply IHl; lia. }
      apply G; unfold k; cbn; lia. }
    unfold pts' at 1. rewrite py_get_app by easy. destruct (py_get pts (Z.of_nat mi)) as [p|]; [|reflexivity]. cbn [bind].
    rewrite (loop_append mi Hmi ltac:(lia) (S k) (S (S k)) mi [] [p]) by (try (cbn; lia); auto; constructor).
    destruct (wrap_loop _ _ _ _ _ _) as [vs|]; [|reflexivity]. cbn [bind]. destruct (build_edges vs) as [es|]; reflexivity.
  Qed.
End Append.

Lemma fold_raise {A B} (f : res A -> B -> res A) e l : (forall b, f (Raise e) b = Raise e) -> fold_left f l (Raise e) = Raise e.
Proof. intros H. induction l as [|b l IH]; [reflexivity|]. cbn [fold_left]. now rewrite H. Qed.
Lemma build_nan L (a b z : vec F) : has_nan z -> @build_edges F (NumF L) [a; b; z] = Raise IndexError.
Proof.
  intros Z. unfold build_edges. cbn [List.rev app List.length seq fold_left]. 
  change (py_get [a; b; z] (Z.of_nat 0)) with (Ok a). change (py_get [a; b; z] (Z.of_nat 1)) with (Ok b). change (py_get [a; b; z] (Z.of_nat 2)) with (Ok z).
  change (py_get [a; b; z] (Z.of_nat 3)) with (Raise (A := vec F) IndexError). cbn [bind].
  pose proof (fun p => proj1 (eq_nan L p z (or_intror Z))) as E. rewrite (E a), (E b), (E z). reflexivity.
Qed.

(** ** Theorems *)
(** Gift wrapping: NaN in the x coordinate of the first point makes compute raise
    IndexError, whatever the other points are; points with a NaN x coordinate
    after three or more others change nothing. *)
Theorem C198_hull_first_F : forall (L : libm) (sorter : list (vec F) -> res (list (vec F))) (p q r : vec F) (rest : list (vec F)),
  vx p = B754_nan ->
  @ConvexHull_compute F (NumF L) sorter WRAPPING_METHOD (ConvexHull_init (p :: q :: r :: rest)) = Raise IndexError.
Proof.
  intros L sorter p q r rest N. cbn [ConvexHull_compute]. unfold compute_wrapping_method, clear_results, ConvexHull_init. cbn [h_alias h_input].
  unfold get_min_point_index.
  assert (M : forall l i, @min_loop F (NumF L) l i p 0 = 0%nat). { induction l as [|a l IH]; intros i; cbn [min_loop]; [reflexivity|]. fops. rewrite N. nans. apply IH. }
  rewrite M. replace (Nat.ltb _ 3) with false by reflexivity. set (pts := p :: q :: r :: rest).
  assert (G0 : py_get pts (Z.of_nat 0) = Ok p) by now apply py_get_nat. assert (G1 : py_get pts (Z.of_nat 1) = Ok q) by now apply py_get_nat.
  rewrite G0. cbn [bind]. cbn [wrap_loop].
  rewrite G0. cbn [bind]. change (first_candidate (List.length pts) 0 []) with 1%nat.
  assert (S1 : forall cp is, (forall a, @double_signed_area_st F (NumF L) cp q a = B754_nan) -> (forall i, In i is -> (i < List.length pts)%nat) -> @wrap_scan F (NumF L) pts cp 0 [] is 1 = Ok 1%nat).
  { intros cp is A. induction is as [|i is IH]; intros Hi; cbn [wrap_scan]; [reflexivity|]. assert (Hi' : forall j, In j is -> (j < List.length pts)%nat) by (intros; apply Hi; now right).
    destruct (_ || _); [auto|]. rewrite G1. cbn [bind]. rewrite (py_get_nth pts i p (Hi i (or_introl eq_refl))). cbn [bind]. rewrite A. cbn [nltb NumF]. rewrite !ltb_nan_l. auto. }
  rewrite S1 by (try (intros; apply area_nan; left; now left); intros i Hi; apply in_seq in Hi; cbn [List.length pts] in *; lia).
  cbn [bind]. rewrite G1. cbn [bind app Nat.eqb].
  cbn [List.length pts wrap_loop]. fold pts. rewrite G1. cbn [bind]. change (first_candidate _ 1 [1%nat]) with 0%nat.
  assert (S2 : forall is, (forall i, In i is -> (i < List.length pts)%nat) -> @wrap_scan F (NumF L) pts q 1 [1%nat] is 0 = Ok 0%nat).
  { intros is. induction is as [|i is IH]; intros Hi; cbn [wrap_scan]; [reflexivity|]. assert (Hi' : forall j, In j is -> (j < List.length pts)%nat) by (intros; apply Hi; now right).
    destruct (_ || _); [auto|]. rewrite G0. cbn [bind]. rewrite (py_get_nth pts i p (Hi i (or_introl eq_refl))). cbn [bind]. rewrite area_nan by (right; left; now left). cbn [nltb NumF]. rewrite !ltb_nan_l. auto. }
  rewrite S2 by (intros i Hi; apply in_seq in Hi; cbn [List.length pts] in *; lia).
  cbn [bind]. rewrite G0. cbn [bind app Nat.eqb]. rewrite build_nan by now left. reflexivity.
Qed.
Theorem C198_hull_last_F : forall (L : libm) (sorter : list (vec F) -> res (list (vec F))) (pts nans : list (vec F)),
  (3 <= List.length pts)%nat -> Forall (fun q => vx q = B754_nan) nans ->
  hull_seen (@ConvexHull_compute F (NumF L) sorter WRAPPING_METHOD (ConvexHull_init (pts ++ nans))) =
  hull_seen (@ConvexHull_compute F (NumF L) sorter WRAPPING_METHOD (ConvexHull_init pts)).
Proof.
  intros L sorter pts nans Hk FN. cbn [ConvexHull_compute]. revert pts Hk. induction FN as [|q nans Q FN IH]; intros pts Hk; [now rewrite app_nil_r|].
  replace (pts ++ q :: nans) with ((pts ++ [q]) ++ nans) by (rewrite <- app_assoc; reflexivity).
  rewrite IH by (rewrite app_length; lia). now apply hull_append.
Qed.
(** The direct method joins a NaN point (in either coordinate) to every other point. *)
Theorem C198_hull_direct_F : forall (L : libm) (sorter : list (vec F) -> res (list (vec F))) (pts : list (vec F)) (i j : nat) (a b : vec F) (h : hull F),
  (3 <= List.length pts)%nat -> (i < j)%nat -> nth_error pts i = Some a -> nth_error pts j = Some b -> has_nan a \/ has_nan b ->
  @ConvexHull_compute F (NumF L) sorter DIRECT_METHOD (ConvexHull_init pts) = Ok h ->
  In (Segment2D_of_points b a) (h_edges h).
Proof.
  intros L sorter pts i j a b h Hk Hij Ha Hb HN. cbn [ConvexHull_compute]. unfold compute_direct_method, clear_results, ConvexHull_init. cbn [h_alias h_input].
  rewrite (proj2 (Nat.ltb_ge (List.length pts) 3)) by lia.
  assert (Hj : (j < List.length pts)%nat) by (apply nth_error_Some; congruence).
  assert (IP : In (i, j) (direct_pairs (List.length pts))).
  { unfold direct_pairs. apply in_flat_map. exists i. split; [apply in_seq; lia|]. apply in_map_iff. exists j. split; [reflexivity|apply in_seq; lia]. }
  assert (SC : forall l k v, @nltb F (NumF L) v (@nlit F (NumF L) 0 1) = false -> exists v', @direct_scan F (NumF L) a (@Vector2D_sub F (NumF L) b a) i j k l v = (true, v') /\ @nltb F (NumF L) v' (@nlit F (NumF L) 0 1) = false).
  { induction l as [|p l IH]; intros k v V; cbn [direct_scan]; [eauto|]. destruct (_ || _); [auto|].
    assert (E : @Vector2D_outer_product F (NumF L) (@Vector2D_sub F (NumF L) b a) (@Vector2D_sub F (NumF L) p a) = B754_nan).
    { unfold Vector2D_outer_product, Vector2D_sub. fops. destruct HN as [[E|E]|[E|E]]; rewrite E; nans; reflexivity. }
    rewrite E. fops. nans. apply IH. cbn [nltb NumF]. apply ltb_nan_l. }
  destruct (SC pts 0%nat (@nlit F (NumF L) 0 1)) as (v' & E1 & E2). { cbn. reflexivity. }
  assert (ST : forall vs es, @direct_step F (NumF L) pts (Ok (vs, es)) (i, j) = Ok (vs ++ [a; b], es ++ [Segment2D_of_points b a])).
  { intros vs es. unfold direct_step. cbn [bind]. rewrite (py_get_nat _ _ a Ha), (py_get_nat _ _ b Hb). cbn [bind]. rewrite E1, E2. reflexivity. }
  clear E1.
  assert (RA : forall e l, fold_left (@direct_step F (NumF L) pts) l (Raise e) = Raise e) by (intros; apply fold_raise; reflexivity).
  assert (KP : forall l vs es vs' es' x, In x es -> fold_left (@direct_step F (NumF L) pts) l (Ok (vs, es)) = Ok (vs', es') -> In x es').
  { induction l as [|[i1 j1] l IH]; intros vs es vs' es' x X; cbn [fold_left]; [intros [= <- <-]; easy|].
    unfold direct_step at 2. cbn [bind]. destruct (py_get pts (Z.of_nat i1)) as [a1|]; cbn [bind]; [|rewrite RA; discriminate]. destruct (py_get pts (Z.of_nat j1)) as [b1|]; cbn [bind]; [|rewrite RA; discriminate].
    destruct (direct_scan _ _ _ _ _ _ _) as [[] v]; apply IH; [|easy]. apply in_app_iff. now left. }
  assert (GO : forall l vs es vs' es', In (i, j) l -> fold_left (@direct_step F (NumF L) pts) l (Ok (vs, es)) = Ok (vs', es') -> In (Segment2D_of_points b a) es').
  { induction l as [|[i1 j1] l IH]; intros vs es vs' es' I; [destruct I|]. cbn [fold_left]. destruct I as [[= -> ->]|I].
    - rewrite ST. apply KP. apply in_app_iff. right. now left.
    - destruct (direct_step pts (Ok (vs, es)) (i1, j1)) as [[vs1 es1]|e]; [now apply IH|]. rewrite RA. discriminate. }
  destruct (fold_left _ _ _) as [[vs es]|] eqn:FL; [|discriminate]. cbn [bind]. pose proof (GO _ _ _ _ _ IP FL) as IN.
  destruct vs; [intros [= <-]; exact IN|]. destruct (sorter _); cbn [bind]; [|discriminate]. intros [= <-]. exact IN.
Qed.

(** ** Examples: the hypotheses are met and the calls do what the theorems say *)
Definition zpt (x y : Z) : vec F := mkVec (F_of_Z x) (F_of_Z y) true.
Definition npt : vec F := mkVec B754_nan (F_of_Z 1) true.
Definition seen_sizes (r : res (list (vec F) * list (seg F))) : option (nat * nat) :=
  match r with Ok (vs, es) => Some (List.length vs, List.length es) | Raise _ => None end.
Example C198_hull_nonvacuous : forall L : libm, let s := fun l : list (vec F) => Ok l in
  (vx npt = B754_nan /\ @ConvexHull_compute F (NumF L) s WRAPPING_METHOD (ConvexHull_init [npt; zpt 0 0; zpt 4 0; zpt 0 4]) = Raise IndexError) /\
  seen_sizes (hull_seen (@ConvexHull_compute F (NumF L) s WRAPPING_METHOD (ConvexHull_init ([zpt 0 0; zpt 4 0; zpt 1 1; zpt 0 4] ++ [npt; npt])))) = Some (3, 2)%nat /\
  seen_sizes (hull_seen (@ConvexHull_compute F (NumF L) s DIRECT_METHOD (ConvexHull_init [zpt 0 0; zpt 4 0; npt; zpt 0 4]))) <> None.
Proof.
  intros L s. split; [split; [reflexivity|apply C198_hull_first_F; reflexivity]|]. split.
  - unfold s. rewrite C198_hull_last_F by (try (cbn; lia); repeat (constructor; try reflexivity)). vm_compute. reflexivity.
  - intros N. vm_compute in N. discriminate.
Qed.
