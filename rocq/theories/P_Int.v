(** * P_Int: whole-number coordinates of any size (C195)

    Coordinates given as Python ints stay ints, and the functions below only add, subtract, multiply and compare them;
    the literals in them (0.0, EPSILON, CALC_ERROR) are only compared with.  So the answers are exact however large the
    coordinates, which the same call on floats does not give. *)
From Coq Require Import Sorting.Sorted ZArith List Bool String Reals Lra Lia Permutation.
From Flocq Require Import Core BinarySingleNaN.
From Verif Require Import Base Types NumR NumF NumP R_Tac Spec Spec2 Abs M_Angle M_Vector M_Line M_Triangle M_Segment M_Hull
  L_Angle P_Vector P_Line L_Seg P_Segment P_Triangle L_Float P_Float M_Polygon P_Polygon P_Polygon2 P_Hull P_Hull2 P_HullF.
Import ListNotations.
Local Open Scope R_scope.

(** the vector Vector2D(x, y) for ints x, y; the same point of the plane; the same vector of floats *)
Definition ivec (p : Z * Z) : vec pynum := V (PyI (fst p)) (PyI (snd p)).
Definition zpt (p : Z * Z) : point := (IZR (fst p), IZR (snd p)).
Definition fvec (p : Z * Z) : vec F := V (F_of_Z (fst p)) (F_of_Z (snd p)).
Definition rvecz (p : Z * Z) : vec R := V (IZR (fst p)) (IZR (snd p)).
Lemma pt_rvecz p : pt (rvecz p) = zpt p. Proof. reflexivity. Qed.
(** the lines and segments through integer points *)
Definition iseg (p q : Z * Z) : seg pynum := mkSeg (ivec p) (ivec q).
Definition rsegz (p q : Z * Z) : seg R := mkSeg (rvecz p) (rvecz q).

(** ** Comparisons of ints as comparisons of real numbers *)
Lemma ltb_I a b : py_ltb (PyI a) (PyI b) = Rlt_bool (IZR a) (IZR b). Proof. now apply py_ltb_ok. Qed.
Lemma leb_I a b : py_leb (PyI a) (PyI b) = Rle_bool (IZR a) (IZR b). Proof. now apply py_leb_ok. Qed.
Lemma eqb_I a b : py_eqb (PyI a) (PyI b) = Req_bool (IZR a) (IZR b). Proof. now apply py_eqb_ok. Qed.
Ltac pnum := cbn [NumP nlit nadd nsub nmul nneg nltb nleb neqb py_arith vx vy ivec V fst snd s_origin s_terminal iseg l_a l_b l_c t_a t_b t_c].
Ltac izr := rewrite ?ltb_I, ?leb_I, ?eqb_I, ?plus_IZR, ?minus_IZR, ?mult_IZR, ?opp_IZR, ?plus_IZR, ?minus_IZR, ?mult_IZR, ?opp_IZR.

Section Int.
  Variable L : libm.
  Notation N := (NumP L).

  (** twice the signed area, an int *)
  Definition areaZ (a b c : Z * Z) : Z := (fst a - fst c) * (snd b - snd c) + (fst b - fst c) * (snd c - snd a).
  Lemma area_I a b c : @double_signed_area_st pynum N (ivec a) (ivec b) (ivec c) = PyI (areaZ a b c).
  Proof. reflexivity. Qed.
  Lemma area_IZR a b c : IZR (areaZ a b c) = double_signed_area_st (rvecz a) (rvecz b) (rvecz c).
  Proof. unfold areaZ, double_signed_area_st. rnum. cbn [vx vy rvecz V]. now rewrite plus_IZR, !mult_IZR, !minus_IZR. Qed.
  Lemma area_side a b c : IZR (areaZ a b c) = side (zpt a) (zpt b) (zpt c).
  Proof. rewrite area_IZR. unfold double_signed_area_st. rnum. unfold side, cross, psub, zpt, px, py. cbn. ring. Qed.
  Lemma veq_I a b : @Vector2D_eq pynum N (ivec a) (ivec b) = Vector2D_eq (rvecz a) (rvecz b).
  Proof. unfold Vector2D_eq. rnum. pnum. now rewrite !eqb_I. Qed.
  Lemma check_I a b p : @check_intersects_on_line pynum N (iseg a b) (ivec p) = check_intersects_on_line (rsegz a b) (rvecz p).
  Proof. unfold check_intersects_on_line. rnum. pnum. now rewrite !eqb_I, !leb_I. Qed.
  Lemma exist_I a b c d : @Segment2D_exist_intersection_seg pynum N (iseg a b) (iseg c d) = Segment2D_exist_intersection_seg (rsegz a b) (rsegz c d).
  Proof.
    unfold Segment2D_exist_intersection_seg. cbv zeta. cbn [s_origin s_terminal iseg rsegz]. rewrite !area_I, <- !area_IZR, !veq_I.
    change (mkSeg (ivec a) (ivec b)) with (iseg a b). change (mkSeg (ivec c) (ivec d)) with (iseg c d). change (mkSeg (rvecz a) (rvecz b)) with (rsegz a b). change (mkSeg (rvecz c) (rvecz d)) with (rsegz c d).
    rewrite !check_I. rnum. cbn [NumP nlit nmul nltb neqb py_arith]. now rewrite !ltb_I, !eqb_I, !mult_IZR.
  Qed.
End Int.

(** C195: the orientation test.  double_signed_area is exact, an int; ccw answers True exactly when the points turn left. *)
Theorem C195_orientation : forall (L : libm) (a b c : Z * Z),
  value (@double_signed_area_st pynum (NumP L) (ivec a) (ivec b) (ivec c)) = side (zpt a) (zpt b) (zpt c) /\
  (@tri_ccw pynum (NumP L) (ivec a) (ivec b) (ivec c) = true <-> 0 < side (zpt a) (zpt b) (zpt c)).
Proof.
  intros L a b c. rewrite <- area_side. split; [now rewrite area_I|]. unfold tri_ccw. rewrite area_I. pnum. rewrite ltb_I. apply Rlt_bool_iff.
Qed.
(** ... which is not so for the same points as floats *)
Theorem C195_orientation_float_refuted : exists a b c : Z * Z, forall L : libm, 0 < side (zpt a) (zpt b) (zpt c) /\
  @tri_ccw pynum (NumP L) (ivec a) (ivec b) (ivec c) = true /\ @tri_ccw F (NumF L) (fvec a) (fvec b) (fvec c) = false /\
  Forall (fun p => B2R (vx (fvec p)) = px (zpt p) /\ B2R (vy (fvec p)) = py (zpt p)) [a; b; c].
Proof.
  exists (2 ^ 27 + 1, 2 ^ 27)%Z, (2 ^ 27 + 2, 2 ^ 27 + 1)%Z, (0, 0)%Z. intros L.
  assert (S : 0 < side (zpt (2 ^ 27 + 1, 2 ^ 27)%Z) (zpt (2 ^ 27 + 2, 2 ^ 27 + 1)%Z) (zpt (0, 0)%Z)) by (rewrite <- area_side; apply (IZR_lt 0); reflexivity).
  split; [exact S|]. split; [now apply C195_orientation|]. split; [vm_compute; reflexivity|].
  repeat constructor; cbn [fvec vx vy V fst snd zpt px py]; apply F_of_Z_exact; reflexivity.
Qed.

(** C195: the inner and outer product and the squared length are exact *)
Theorem C195_products : forall (L : libm) (a b : Z * Z),
  value (@Vector2D_inner_product pynum (NumP L) (ivec a) (ivec b)) = dot (zpt a) (zpt b) /\
  value (@Vector2D_outer_product pynum (NumP L) (ivec a) (ivec b)) = cross (zpt a) (zpt b) /\
  value (@Vector2D_r2 pynum (NumP L) (ivec a)) = norm2 (zpt a) /\
  (@Vector2D_eq pynum (NumP L) (ivec a) (ivec b) = true <-> a = b).
Proof.
  intros L [ax ay] [bx by_]. unfold Vector2D_inner_product, Vector2D_outer_product, Vector2D_r2, dot, cross, norm2. pnum. cbn [value zpt px py fst snd]. rewrite !plus_IZR, minus_IZR, !mult_IZR. repeat split.
  - unfold Vector2D_eq. pnum. rewrite andb_true_iff, !eqb_I, !Req_bool_iff. intros [A B]. apply eq_IZR in A, B. now subst.
  - intros [= -> ->]. unfold Vector2D_eq. pnum. now rewrite andb_true_iff, !eqb_I, !Req_bool_iff.
Qed.

(** C195: a triangle contains a point exactly when it does *)
Theorem C195_triangle : forall (L : libm) (a b c p : Z * Z), ~ collinear (zpt a) (zpt b) (zpt c) ->
  (@Triangle2D_contains pynum (NumP L) (Triangle2D_of_points (ivec a) (ivec b) (ivec c)) (ivec p) = true <-> in_triangle (zpt a) (zpt b) (zpt c) (zpt p)).
Proof.
  intros L a b c p NC. destruct (C43_contains_R (rvecz a) (rvecz b) (rvecz c) (rvecz p)) as (_ & H & _). specialize (H NC). cbn [pt] in H. rewrite <- !pt_rvecz. rewrite <- H.
  unfold Triangle2D_contains, tri_contains, Triangle2D_of_points, Vector2D_of_vec, Vector2D_sub, Vector2D_outer_product. rnum. pnum. cbn [rvecz vx vy V fst snd].
  rewrite !leb_I, !minus_IZR, !mult_IZR, !minus_IZR. reflexivity.
Qed.

(** C195: two segments, and a segment and a line through two points, are reported to meet exactly when they share a point;
    except_endpoint exactly when they cross at an inner point of both *)
Theorem C195_segments : forall (L : libm) (a b c d : Z * Z),
  (@Segment2D_exist_intersection pynum (NumP L) (iseg a b) (VSeg (iseg c d)) = VBool true <-> exists q, on_seg (zpt a) (zpt b) q /\ on_seg (zpt c) (zpt d) q) /\
  (@Segment2D_exist_intersection_except_endpoint pynum (NumP L) (iseg a b) (iseg c d) = true <->
     cross (psub (zpt b) (zpt a)) (psub (zpt d) (zpt c)) <> 0 /\ exists q, in_open_seg (zpt a) (zpt b) q /\ in_open_seg (zpt c) (zpt d) q) /\
  (zpt c <> zpt d ->
     (@Segment2D_exist_intersection pynum (NumP L) (iseg a b) (VLine (@Line2D_of_points pynum (NumP L) (ivec c) (ivec d))) = VBool true <-> exists q, on_seg (zpt a) (zpt b) q /\ on_line2 (zpt c) (zpt d) q)).
Proof.
  intros L a b c d. split; [|split].
  - cbn [Segment2D_exist_intersection]. rewrite exist_I. destruct (C27_exist_intersection_R (rsegz a b) (rsegz c d)) as (r & E & H). cbn [Segment2D_exist_intersection] in E. apply (f_equal (fun v => match v with VBool x => x | _ => false end)) in E. cbv beta iota in E. rewrite E.
    unfold spts in H. cbn [s_origin s_terminal rsegz] in H. rewrite !pt_rvecz in H. rewrite <- H. split; [now intros [=]|now intros ->].
  - pose proof (C30_except_endpoint_R (rsegz a b) (rsegz c d)) as H. cbn [s_origin s_terminal rsegz] in H. rewrite !pt_rvecz in H. rewrite <- H. clear H.
    unfold Segment2D_exist_intersection_except_endpoint. cbn [s_origin s_terminal rsegz iseg]. rewrite !area_I, <- !area_IZR. rnum. cbn [NumP nlit nmul nltb py_arith]. now rewrite !ltb_I, !mult_IZR.
  - intros NE. cbn [Segment2D_exist_intersection].
    assert (E : @Segment2D_exist_intersection_line pynum (NumP L) (iseg a b) (@Line2D_of_points pynum (NumP L) (ivec c) (ivec d)) = Segment2D_exist_intersection_line (rsegz a b) (Line2D_of_points (rvecz c) (rvecz d))).
    { unfold Segment2D_exist_intersection_line, Line2D_of_points. rnum. pnum. cbn [rvecz rsegz vx vy V fst snd s_origin s_terminal l_a l_b l_c].
      rewrite leb_I, !mult_IZR, !plus_IZR, !mult_IZR, !opp_IZR, !minus_IZR, !mult_IZR, !opp_IZR, !minus_IZR. reflexivity. }
    rewrite E. destruct (C29_exist_intersection_line_R (rsegz a b) (Line2D_of_points (rvecz c) (rvecz d))) as (r & E2 & H). cbn [Segment2D_exist_intersection] in E2. apply (f_equal (fun v => match v with VBool x => x | _ => false end)) in E2. cbv beta iota in E2. rewrite E2.
    unfold spts in H. cbn [s_origin s_terminal rsegz] in H. rewrite !pt_rvecz in H.
    assert (LN : forall q, lpts (Line2D_of_points (rvecz c) (rvecz d)) q <-> on_line2 (zpt c) (zpt d) q) by (intros q; rewrite lpts_of_points; now apply collinear_on_line2).
    split; [intros [= ->]; destruct (proj1 H eq_refl) as (q & Q1 & Q2); exists q; split; [exact Q1|now apply LN]|].
    intros (q & Q1 & Q2). f_equal. apply H. exists q. split; [exact Q1|now apply LN].
Qed.

(** C195: on_segment is exact for a segment that is not a single point; contains accepts exactly the bounding rectangle *)
Lemma calc_error_I (L : libm) z : @nleb pynum (NumP L) (PyI z) (@CALC_ERROR pynum (NumP L)) = Rle_bool (IZR z) 0.
Proof.
  change (@CALC_ERROR pynum (NumP L)) with (PyF (F_lit 1 1000000000)). cbn [nleb NumP].
  assert (FE : is_finite (F_lit 1 1000000000) = true) by (vm_compute; reflexivity). rewrite py_leb_ok by (reflexivity || exact FE). cbn [value].
  assert (B : 0 < B2R (F_lit 1 1000000000) < 1) by (vm_compute; lra). revert B. generalize (B2R (F_lit 1 1000000000)). intros x B.
  apply eq_true_iff_eq. rewrite !Rle_bool_iff. split; [|lra]. intros H. destruct (Z.le_gt_cases z 0) as [Q|Q]; [now apply (IZR_le z 0)|]. assert (1 <= IZR z) by (apply (IZR_le 1); lia). lra.
Qed.
Theorem C195_on_segment : forall (L : libm) (a b p : Z * Z),
  (zpt a <> zpt b -> (@Segment2D_on_segment pynum (NumP L) (iseg a b) (ivec p) = true <-> on_seg (zpt a) (zpt b) (zpt p))) /\
  (@Segment2D_contains pynum (NumP L) (iseg a b) (ivec p) = true <->
     (Z.min (fst a) (fst b) <= fst p <= Z.max (fst a) (fst b))%Z /\ (Z.min (snd a) (snd b) <= snd p <= Z.max (snd a) (snd b))%Z).
Proof.
  intros L a b p. split.
  - intros NE. destruct (C35_on_segment_R (rsegz a b) (rvecz p)) as [H _]. cbn [s_origin s_terminal rsegz] in H. rewrite !pt_rvecz in H. specialize (H NE). unfold spts in H. cbn [s_origin s_terminal rsegz] in H. rewrite !pt_rvecz in H. rewrite <- H.
    unfold Segment2D_on_segment. rewrite check_I. cbn [s_origin s_terminal rsegz iseg]. rewrite area_I, <- area_IZR. rnum. cbn [NumP nlit neqb]. now rewrite eqb_I.
  - unfold Segment2D_contains. pnum. change (py_leb ?x ?y) with (@nleb pynum (NumP L) x y). rewrite !calc_error_I, andb_true_iff, !Rle_bool_iff.
    assert (G : forall x y z : Z, IZR ((z - x) * (z - y)) <= 0 <-> (Z.min x y <= z <= Z.max x y)%Z).
    { intros x y z. split; [intros H; apply (le_IZR _ 0) in H; nia|intros H; apply (IZR_le _ 0); nia]. }
    now rewrite !G.
Qed.

(** ** Gift wrapping on two representations of the same points *)
Section Sim.
  Context {C A B : Type} {NA : Num A} {NB : Num B} (f : C -> vec A) (g : C -> vec B) (cs : list C).
  Definition lexb {T} {N : Num T} (p q : vec T) : bool := ((vx p >? vx q) || ((vx p =? vx q) && (vy p >? vy q)))%num%bool.
  Definition left_test {T} {N : Num T} (a b c : vec T) : bool := (double_signed_area_st a b c <? nlit 0 1)%num.
  Definition flat_test {T} {N : Num T} (a b c : vec T) : bool := (double_signed_area_st a b c <? EPSILON)%num.
  Hypothesis LEX : forall p q, lexb (f p) (f q) = lexb (g p) (g q).
  Hypothesis EQ : forall p q, Vector2D_eq (f p) (f q) = Vector2D_eq (g p) (g q).
  Hypothesis EQR : forall p, Vector2D_eq (f p) (f p) = true.
  Hypothesis ND : NoDup cs.
  Hypothesis AREA : forall a b c, In a cs -> In b cs -> In c cs -> a <> b -> b <> c -> a <> c ->
    left_test (f a) (f b) (f c) = left_test (g a) (g b) (g c) /\
    (left_test (f a) (f b) (f c) = false -> flat_test (f a) (f b) (f c) = false /\ flat_test (g a) (g b) (g c) = false).
  Variable d : C.
  Notation pf := (map f cs).
  Notation pg := (map g cs).
  Notation at_ i := (nth i cs d).

  Lemma min_loop_sim l : forall i mp mi, min_loop (map f l) i (f mp) mi = min_loop (map g l) i (g mp) mi.
  Proof. induction l as [|p l IH]; intros i mp mi; [reflexivity|]. cbn [map min_loop]. pose proof (LEX mp p) as E. unfold lexb in E. rewrite E. clear E. destruct (_ || _)%bool; apply IH. Qed.
  Lemma min_index_sim : get_min_point_index pf = get_min_point_index pg.
  Proof. destruct cs as [|c l]; [reflexivity|]. cbn [map get_min_point_index]. f_equal. exact (min_loop_sim (c :: l) 0%nat c 0%nat). Qed.
  Lemma get_f i : (i < List.length cs)%nat -> py_get pf (Z.of_nat i) = Ok (f (at_ i)).
  Proof. intros H. rewrite (py_get_nth _ _ (f d)) by now rewrite map_length. now rewrite map_nth. Qed.
  Lemma get_g i : (i < List.length cs)%nat -> py_get pg (Z.of_nat i) = Ok (g (at_ i)).
  Proof. intros H. rewrite (py_get_nth _ _ (g d)) by now rewrite map_length. now rewrite map_nth. Qed.

  Lemma scan_sim cur used : (cur < List.length cs)%nat -> forall is cand,
    (cand < List.length cs)%nat -> StronglySorted lt is -> Forall (fun i => cand < i < List.length cs)%nat is ->
    cand <> cur \/ Forall (fun i => (Nat.eqb i cur || existsb (Nat.eqb i) used)%bool = true) is ->
    exists c, (c < List.length cs)%nat /\ wrap_scan pf (f (at_ cur)) cur used is cand = Ok c /\ wrap_scan pg (g (at_ cur)) cur used is cand = Ok c.
  Proof.
    intros HC is. induction is as [|i is IH]; intros cand HK SS RG SK; [exists cand; repeat split; assumption|]. cbn [wrap_scan].
    inversion SS as [|? ? SS' SM]; subst. inversion RG as [|? ? R1 R2]; subst.
    assert (RI : Forall (fun j => i < j < List.length cs)%nat is). { rewrite Forall_forall in *. intros j Hj. split; [now apply SM|now apply R2]. }
    destruct (Nat.eqb i cur || existsb (Nat.eqb i) used)%bool eqn:K.
    - apply IH; try assumption. destruct SK as [SK|SK]; [now left|]. right. now inversion SK.
    - destruct SK as [SK|SK]; [|inversion SK as [|? ? K2]; rewrite K in K2; discriminate].
      assert (NI : i <> cur) by (intros ->; rewrite Nat.eqb_refl in K; discriminate).
      rewrite !get_f, !get_g by lia. cbn [bind].
      assert (DI : forall x y, (x < List.length cs)%nat -> (y < List.length cs)%nat -> x <> y -> at_ x <> at_ y) by (intros x y X Y NE E; apply NE; now apply (NoDup_nth cs d) in E).
      destruct (AREA (at_ cur) (at_ cand) (at_ i)) as [A1 A2]; try (apply nth_In; lia); try (apply DI; lia).
      unfold left_test, flat_test in A1, A2. rewrite <- A1. destruct (double_signed_area_st (f _) _ _ <? _)%num eqn:E.
      + apply IH; try assumption; [lia|]. now left.
      + destruct (A2 eq_refl) as [A3 A4]. rewrite A3, A4. apply IH; try assumption. now left.
  Qed.

  Lemma seq_sorted k : forall i, StronglySorted lt (seq i k).
  Proof. induction k as [|k IH]; intros i; cbn [seq]; constructor; [apply IH|]. apply Forall_forall. intros j Hj. apply in_seq in Hj. lia. Qed.
  Lemma loop_sim fuel : forall mi cur used vs, (cur < List.length cs)%nat -> exists out,
    wrap_loop fuel pf mi cur used (map f vs) = Ok (map f (vs ++ out)) /\ wrap_loop fuel pg mi cur used (map g vs) = Ok (map g (vs ++ out)) /\ incl out cs.
  Proof.
    induction fuel as [|fuel IH]; intros mi cur used vs HC; cbn [wrap_loop]; [exists []; rewrite app_nil_r; repeat split; intros x []|].
    rewrite get_f, get_g by assumption. cbn [bind]. rewrite !map_length. set (n := List.length cs) in *. set (c0 := first_candidate n cur used).
    destruct (scan_sim cur used HC (seq (S c0) (n - S c0)) c0) as (c & B1 & S1 & S2).
    - unfold c0, first_candidate. destruct (find _ _) as [i|] eqn:E; [|unfold n in *; lia]. apply find_some in E as [E _]. apply in_seq in E. unfold n in *. lia.
    - apply seq_sorted.
    - apply Forall_forall. intros j Hj. apply in_seq in Hj. unfold n in *. lia.
    - unfold c0, first_candidate. destruct (find _ _) as [i|] eqn:E.
      + left. apply find_some in E as [_ E]. apply andb_true_iff in E as [E _]. now destruct (Nat.eqb_spec i cur).
      + right. apply Forall_forall. intros j Hj. apply in_seq in Hj. assert (J : In j (seq 0 n)) by (apply in_seq; lia). pose proof (find_none _ _ E j J) as K. cbv beta in K.
        destruct (Nat.eqb j cur), (existsb (Nat.eqb j) used); cbn in *; congruence.
    - rewrite S1, S2. cbn [bind]. rewrite get_f, get_g by assumption. cbn [bind].
      assert (IC : In (at_ c) cs) by (now apply nth_In).
      destruct (Nat.eqb c mi).
      + exists [at_ c]. rewrite !map_app. repeat split. intros x [<-|[]]. exact IC.
      + change ([f (at_ c)]) with (map f [at_ c]). change ([g (at_ c)]) with (map g [at_ c]). rewrite <- !map_app.
        destruct (IH mi c (used ++ [c]) (vs ++ [at_ c]) B1) as (out & O1 & O2 & O3). exists (at_ c :: out). rewrite O1, O2, <- !app_assoc. repeat split. intros x [<-|Hx]; [exact IC|now apply O3].
  Qed.
  Lemma open_pairs_map {X Y} (h : X -> Y) l : open_pairs (map h l) = map (fun e => (h (fst e), h (snd e))) (open_pairs l).
  Proof. induction l as [|a [|b l] IH]; [reflexivity|reflexivity|]. cbn [map open_pairs fst snd] in *. now rewrite IH. Qed.
  Lemma last_map {X Y} (h : X -> Y) l a : last (map h l) (h a) = h (last l a).
  Proof. induction l as [|x [|y l] IH]; [reflexivity|reflexivity|]. exact IH. Qed.
  Lemma edges_sim vs : vs <> [] -> exists es : list (C * C), build_edges (map f vs) = Ok (map (fun e => Segment2D_of_points (f (fst e)) (f (snd e))) es) /\
    build_edges (map g vs) = Ok (map (fun e => Segment2D_of_points (g (fst e)) (g (snd e))) es).
  Proof.
    destruct vs as [|v vs]; [easy|]. intros _. exists (filter (fun e => negb (Vector2D_eq (f (fst e)) (f (last vs v)))) (open_pairs (v :: vs))).
    cbn [map]. rewrite !build_edges_gen by (rewrite last_map, <- ?EQ; apply EQR). rewrite !last_map.
    change (f v :: map f vs) with (map f (v :: vs)). change (g v :: map g vs) with (map g (v :: vs)). rewrite !open_pairs_map. split; f_equal.
    - generalize (open_pairs (v :: vs)). intros l. induction l as [|e l IH]; [reflexivity|]. cbn [map filter fst snd]. destruct (negb _); cbn [map fst snd]; now rewrite IH.
    - generalize (open_pairs (v :: vs)). intros l. induction l as [|e l IH]; [reflexivity|]. cbn [map filter fst snd]. rewrite <- EQ. destruct (negb _); cbn [map fst snd]; now rewrite IH.
  Qed.
  Lemma wrapping_sim sf sg : exists vs es,
    ConvexHull_compute sf WRAPPING_METHOD (ConvexHull_init pf) = Ok (mkHull pf (map f vs) (map (fun e => Segment2D_of_points (f (fst e)) (f (snd e))) es) false) /\
    ConvexHull_compute sg WRAPPING_METHOD (ConvexHull_init pg) = Ok (mkHull pg (map g vs) (map (fun e => Segment2D_of_points (g (fst e)) (g (snd e))) es) false).
  Proof.
    cbn [ConvexHull_compute]. unfold compute_wrapping_method, clear_results, ConvexHull_init. cbn [h_alias h_input]. rewrite min_index_sim, !map_length.
    destruct (get_min_point_index pg) as [mi|] eqn:E; [|exists [], []; now split]. destruct (Nat.ltb_spec (List.length cs) 3); [exists [], []; now split|].
    assert (HM : (mi < List.length cs)%nat).
    { assert (K : forall l i mp m, (m < i + List.length l)%nat -> (min_loop (map g l) i mp m < i + List.length l)%nat).
      { clear. induction l as [|p l IH]; intros i mp m Hm; [exact Hm|]. cbn [map min_loop List.length] in *. destruct (_ || _)%bool; rewrite <- plus_n_Sm, <- plus_Sn_m; apply IH; lia. }
      destruct cs as [|c l]; [discriminate|]. cbn [map get_min_point_index] in E. injection E as <-. apply (K (c :: l) 0%nat (g c) 0%nat). cbn. lia. }
    rewrite get_f, get_g by assumption. cbn [bind]. destruct (loop_sim (S (List.length cs)) mi mi [] [at_ mi] HM) as (out & O1 & O2 & _). cbn [map] in O1, O2. rewrite O1, O2. cbn [bind].
    destruct (edges_sim ([at_ mi] ++ out)) as (es & E1 & E2); [discriminate|]. rewrite E1, E2. cbn [bind].
    exists (removelast ([at_ mi] ++ out)), es.
    assert (RL : forall {X Y} (h : X -> Y) l, removelast (map h l) = map h (removelast l)) by (clear; intros X Y h l; induction l as [|a [|b l] IH]; [reflexivity|reflexivity|]; cbn [map removelast] in *; now rewrite IH).
    now rewrite !RL.
  Qed.
End Sim.

(** C195: the convex hull of integer points of any size, no three on a line: gift wrapping never raises and returns the
    hull, corner for corner *)
Theorem C195_hull : forall (L : libm) (ps : list (Z * Z)) sorter, (3 <= List.length ps)%nat -> NoDup ps ->
  (forall a b c, In a ps -> In b ps -> In c ps -> a <> b -> b <> c -> a <> c -> ~ collinear (zpt a) (zpt b) (zpt c)) ->
  exists vs es, @ConvexHull_compute pynum (NumP L) sorter WRAPPING_METHOD (ConvexHull_init (map ivec ps)) = Ok (mkHull (map ivec ps) (map ivec vs) es false) /\
    (3 <= List.length vs)%nat /\ incl vs ps /\ strictly_convex (map zpt vs) /\
    (forall p, In p ps -> In p vs \/ strictly_inside (map zpt vs) (zpt p)) /\
    es = map (fun e => Segment2D_of_points (ivec (fst e)) (ivec (snd e))) (tl (closed_edges vs)).
Proof.
  intros L ps sorter Hn ND NC.
  assert (INJ : forall p q, zpt p = zpt q -> p = q) by (intros [x y] [u v] E; injection E as E1 E2; apply eq_IZR in E1, E2; now subst).
  assert (GP : general_position (map pt (map rvecz ps))).
  { rewrite map_map. split; [apply FinFun.Injective_map_NoDup; [exact INJ|exact ND]|]. intros a b c Ia Ib Ic N1 N2 N3.
    apply in_map_iff in Ia, Ib, Ic. destruct Ia as (a' & <- & Ia), Ib as (b' & <- & Ib), Ic as (c' & <- & Ic). rewrite !pt_rvecz in *. rewrite <- area_side.
    assert (Z0 : areaZ a' b' c' <> 0%Z). { intros Z. apply (NC a' b' c'); try assumption; try congruence. unfold collinear. fold (side (zpt a') (zpt b') (zpt c')). now rewrite <- area_side, Z. }
    rewrite <- abs_IZR. apply Rle_ge. apply Rle_trans with 1; [lra|]. apply (IZR_le 1). lia. }
  destruct (wrapping_sim (NA := NumP L) ivec rvecz ps) with (sf := sorter) (sg := fun l : list (vec R) => @Ok (list (vec R)) l) as (vs & es & E1 & E2).
  - intros p q. unfold lexb. rnum. pnum. now rewrite !ltb_I, eqb_I.
  - intros p q. apply veq_I.
  - intros p. now apply C195_products.
  - exact ND.
  - intros a b c Ia Ib Ic N1 N2 N3. assert (Z0 : areaZ a b c <> 0%Z). { intros Z. apply (NC a b c); try assumption. unfold collinear. fold (side (zpt a) (zpt b) (zpt c)). now rewrite <- area_side, Z. }
    unfold left_test, flat_test. rewrite area_I, <- area_IZR. change (@EPSILON pynum (NumP L)) with (PyF (F_lit 1 1000000)). rnum. cbn [NumP nltb nlit].
    rewrite ltb_I. split; [reflexivity|]. intros K. assert (P0 : (1 <= areaZ a b c)%Z). { rewrite <- ltb_I in K. cbn in K. destruct (areaZ a b c ?= 0)%Z eqn:Q; [apply Z.compare_eq in Q; lia|discriminate|]. apply Z.compare_gt_iff in Q. lia. }
    apply IZR_le in P0. assert (FE : is_finite (F_lit 1 1000000) = true) by (vm_compute; reflexivity). rewrite py_ltb_ok by (reflexivity || exact FE). cbn [value].
    assert (BE : B2R (F_lit 1 1000000) < 1) by (vm_compute; lra). split; apply Rlt_bool_false; lra.
  - exact (0, 0)%Z.
  - destruct (C75_convex_hull_R (map rvecz ps) (fun l => Ok l)) as (vs' & es' & W1 & W2 & W3 & W4 & W5 & _ & W6); [now rewrite map_length|exact GP|]. rewrite W1 in E2. injection E2 as EV EE. subst vs'.
    assert (RI : forall p q, rvecz p = rvecz q -> p = q) by (intros p q E; apply INJ; rewrite <- !pt_rvecz; now f_equal).
    eexists _, _. split; [exact E1|]. rewrite map_length in W2. rewrite map_map in W4. split; [exact W2|].
    assert (INC : incl vs ps). { intros p Hp. specialize (W3 (rvecz p) (in_map rvecz _ _ Hp)). apply in_map_iff in W3. destruct W3 as (q & Q & Hq). apply RI in Q. now subst. }
    split; [exact INC|]. split; [exact W4|]. split.
    + intros p Hp. destruct (W5 (rvecz p) (in_map rvecz _ _ Hp)) as [I|I]; [left|right; now rewrite map_map in I]. apply in_map_iff in I. destruct I as (q & Q & Hq). apply RI in Q. now subst.
    + rewrite W6 in EE. rewrite closed_edges_map in EE. destruct vs as [|v vs]; [cbn in W2; lia|].
      assert (TM : forall X Y (h : X -> Y) l, tl (map h l) = map h (tl l)) by (intros X Y h [|]; reflexivity). rewrite TM, map_map in EE. cbn [fst snd] in EE.
      f_equal. revert EE. generalize (tl (closed_edges (v :: vs))). intros l. revert es E1. clear - RI. intros es _. revert l. induction es as [|[a b] es IH]; intros [|[x y] l] E; cbn [map] in E; try discriminate; [reflexivity|].
      injection E as Ea1 Ea2 Eb1 Eb2 E. f_equal; [|now apply IH]. apply eq_IZR in Ea1, Ea2, Eb1, Eb2. destruct a, b, x, y; cbn in *; now subst.
Qed.
(** coordinates far beyond the doubles: a segment that is not a point, corners that are not on a line, a fourth point *)
Example C195_nonvacuous : exists a b c d : Z * Z, (fst a > 10 ^ 400)%Z /\ is_finite (F_of_Z (fst a)) = false /\ zpt a <> zpt b /\ (3 <= List.length [a; b; c; d])%nat /\ NoDup [a; b; c; d] /\
  (forall p q r, In p [a; b; c; d] -> In q [a; b; c; d] -> In r [a; b; c; d] -> p <> q -> q <> r -> p <> r -> ~ collinear (zpt p) (zpt q) (zpt r)) /\
  in_triangle (zpt a) (zpt b) (zpt c) (zpt d) /\ (forall L, @Triangle2D_contains pynum (NumP L) (Triangle2D_of_points (ivec a) (ivec b) (ivec c)) (ivec d) = true).
Proof.
  exists (2 ^ 1400, 0)%Z, (2 ^ 1400 + 9, 0)%Z, (2 ^ 1400, 9)%Z, (2 ^ 1400 + 1, 2)%Z.
  assert (X : exists k, (2 ^ 1400 = k)%Z) by eauto.
  split; [vm_compute; reflexivity|]. split; [vm_compute; reflexivity|]. destruct X as [k ->].
  assert (NC : forall p q r : Z * Z, areaZ p q r <> 0%Z -> ~ collinear (zpt p) (zpt q) (zpt r)). { intros p q r H C. apply H. apply (eq_IZR _ 0). rewrite area_side. exact C. }
  split; [intros [= E]; apply eq_IZR in E; lia|]. split; [cbn; lia|]. split.
  { repeat constructor; cbn [In]; intros H; repeat destruct H as [H|H]; try exact H; injection H; intros; lia. }
  split. { intros p q r Hp Hq Hr N1 N2 N3. apply NC. unfold areaZ. cbn [In] in *. repeat destruct Hp as [Hp|Hp]; try easy; repeat destruct Hq as [Hq|Hq]; try easy; repeat destruct Hr as [Hr|Hr]; try easy; subst; try congruence; cbn [fst snd]; lia. }
  assert (T : forall L, @Triangle2D_contains pynum (NumP L) (Triangle2D_of_points (ivec (k, 0)%Z) (ivec (k + 9, 0)%Z) (ivec (k, 9)%Z)) (ivec (k + 1, 2)%Z) = true).
  { intros L. unfold Triangle2D_contains, tri_contains, Triangle2D_of_points, Vector2D_of_vec, Vector2D_sub, Vector2D_outer_product. pnum. rewrite !leb_I.
    assert (R : forall z, (0 <= z)%Z -> Rle_bool (IZR 0) (IZR z) = true) by (intros z Hz; apply Rle_bool_true, IZR_le, Hz).
    rewrite !R by lia. reflexivity. }
  split; [|exact T]. set (i := fun x : F => x). set (i2 := fun x _ : F => x).
  apply (C195_triangle (Build_libm i i i i i i i2 i i i2) (k, 0)%Z (k + 9, 0)%Z (k, 9)%Z (k + 1, 2)%Z); [apply NC; unfold areaZ; cbn [fst snd]; lia|apply T].
Qed.
