(** * P_Polygon2: properties C69-C71, point in polygon *)
From Coq Require Import ZArith List Bool String Reals Lra Lia Psatz Permutation Classical.
From Flocq Require Import Core.
From Verif Require Import Base Types NumR R_Tac Spec Spec2 Abs M_Angle M_Vector M_Line M_Ray M_Triangle M_Segment M_Circle M_Sector M_Rect M_Polygon
  L_Angle L_Trig P_Angle P_Vector P_Line L_Seg P_Segment P_Rect P_Polygon.
Import ListNotations.
Local Open Scope R_scope.

(** ** Parity *)
Fixpoint par {A} (f : A -> bool) (l : list A) : bool :=
  match l with [] => false | a :: l' => xorb (f a) (par f l') end.
Lemma par_app {A} (f : A -> bool) l1 l2 : par f (l1 ++ l2) = xorb (par f l1) (par f l2).
Proof. induction l1 as [|a l IH]; cbn; [now destruct (par f l2)|]. rewrite IH. now rewrite xorb_assoc. Qed.
Lemma par_ext {A} (f g : A -> bool) l : (forall e, In e l -> f e = g e) -> par f l = par g l.
Proof. induction l as [|a l IH]; intros H; cbn; [easy|]. rewrite H by (cbn; auto). f_equal. apply IH. intros; apply H; cbn; auto. Qed.
Lemma par_xor {A} (f g : A -> bool) l : par (fun e => xorb (f e) (g e)) l = xorb (par f l) (par g l).
Proof. induction l as [|a l IH]; cbn; [easy|]. rewrite IH. destruct (f a), (g a), (par f l), (par g l); reflexivity. Qed.
Lemma par_false {A} (f : A -> bool) l : (forall e, In e l -> f e = false) -> par f l = false.
Proof. intros H. induction l as [|a l IH]; cbn; [easy|]. rewrite H by (cbn; auto). rewrite xorb_false_l. apply IH. intros; apply H; cbn; auto. Qed.
Lemma par_map {A B} (f : B -> bool) (g : A -> B) l : par f (map g l) = par (fun a => f (g a)) l.
Proof. induction l as [|a l IH]; cbn; [easy|]. now rewrite IH. Qed.
Lemma par_perm {A} (f : A -> bool) l l' : Permutation l l' -> par f l = par f l'.
Proof. induction 1; cbn; try congruence. rewrite <- !xorb_assoc. f_equal. apply xorb_comm. Qed.
Lemma count_par {A} (P : A -> Prop) (f : A -> bool) l n : count P l n -> (forall e, In e l -> (P e <-> f e = true)) -> Nat.odd n = par f l.
Proof.
  induction 1 as [|a l n HP HC IH|a l n HP HC IH]; intros H; cbn [par]; [easy| |].
  - rewrite (proj1 (H a (or_introl eq_refl)) HP). rewrite Nat.odd_succ, <- Nat.negb_odd, IH by (intros; apply H; cbn; auto). now destruct (par f l).
  - rewrite IH by (intros; apply H; cbn; auto). destruct (f a) eqn:E; [|now destruct (par f l)]. exfalso. apply HP. apply H; cbn; auto.
Qed.
Lemma count_exists {A} (P : A -> Prop) l : exists n, count P l n.
Proof. induction l as [|a l [n IH]]; [exists 0%nat; constructor|]. destruct (classic (P a)); [exists (S n)|exists n]; now constructor. Qed.
Lemma par_unique {A} (f : A -> bool) l e : NoDup l -> In e l -> (forall e', In e' l -> f e' = true -> e' = e) -> par f l = f e.
Proof.
  induction l as [|a l IH]; intros ND HI HU; [easy|]. inversion ND as [|x y NI ND']; subst. cbn [par]. destruct HI as [<-|HI].
  - rewrite par_false; [now destruct (f a)|]. intros e' He'. destruct (f e') eqn:E; [|easy]. exfalso. apply NI. rewrite <- (HU e'); cbn; auto.
  - destruct (f a) eqn:E.
    + exfalso. apply NI. rewrite (HU a); cbn; auto.
    + rewrite (IH ND' HI); [now destruct (f e)|]. intros e' He'. apply HU. cbn; auto.
Qed.

(** ** When an edge is crossed *)
Definition upb (p : point) (e : point * point) : bool := Rle_bool (py (fst e)) (py p) && Rlt_bool (py p) (py (snd e)).
Definition downb (p : point) (e : point * point) : bool := Rle_bool (py (snd e)) (py p) && Rlt_bool (py p) (py (fst e)).
Definition crossb (p : point) (e : point * point) : bool :=
  (upb p e && Rlt_bool 0 (side (fst e) (snd e) p)) || (downb p e && Rlt_bool (side (fst e) (snd e) p) 0).
Lemma upb_iff p e : upb p e = true <-> py (fst e) <= py p < py (snd e).
Proof. unfold upb. rewrite andb_true_iff, Rle_bool_iff, Rlt_bool_iff. tauto. Qed.
Lemma downb_iff p e : downb p e = true <-> py (snd e) <= py p < py (fst e).
Proof. unfold downb. rewrite andb_true_iff, Rle_bool_iff, Rlt_bool_iff. tauto. Qed.
Lemma on_seg_level a b Y : py a <> py b -> (py a <= Y <= py b \/ py b <= Y <= py a) ->
  on_seg a b (px a + (Y - py a) / (py b - py a) * (px b - px a), Y).
Proof.
  intros N H. exists ((Y - py a) / (py b - py a)). split.
  - destruct H as [H|H].
    + split; [apply Rmult_le_pos; [lra|left; apply Rinv_0_lt_compat; lra]|]. apply Rmult_le_reg_r with (py b - py a); [lra|]. field_simplify; lra.
    + replace ((Y - py a) / (py b - py a)) with ((py a - Y) / (py a - py b)) by (field; lra).
      split; [apply Rmult_le_pos; [lra|left; apply Rinv_0_lt_compat; lra]|]. apply Rmult_le_reg_r with (py a - py b); [lra|]. field_simplify; lra.
  - unfold lerp; apply point_eq; cbn [px py fst snd]; [easy|]. unfold py in *. field. lra.
Qed.
Lemma on_seg_level_unique a b x Y : py a <> py b -> on_seg a b (x, Y) -> x = px a + (Y - py a) / (py b - py a) * (px b - px a).
Proof.
  intros N (t & _ & E). unfold lerp in E. injection E as Ex Ey. rewrite Ex, Ey. unfold px, py in *. field. lra.
Qed.
Lemma side_level a b p : side a b p = (px b - px a) * (py p - py a) - (py b - py a) * (px p - px a).
Proof. reflexivity. Qed.
Lemma crosses_iff p e : crosses_right p e <-> crossb p e = true.
Proof.
  destruct e as [a b]. unfold crosses_right, crossb. rewrite orb_true_iff, !andb_true_iff, upb_iff, downb_iff, !Rlt_bool_iff. cbn [fst snd].
  assert (U : py a <= py p < py b -> ((exists x, px p < x /\ on_seg a b (x, py p)) <-> 0 < side a b p)).
  { intros H. assert (N : py a <> py b) by lra. set (x0 := px a + (py p - py a) / (py b - py a) * (px b - px a)).
    assert (E : (x0 - px p) * (py b - py a) = side a b p) by (rewrite side_level; unfold x0; field; lra).
    split.
    - intros (x & Hx & Hs). apply (on_seg_level_unique _ _ _ _ N) in Hs. fold x0 in Hs. rewrite <- E. apply Rmult_lt_0_compat; lra.
    - intros K. exists x0. split; [|apply on_seg_level; [easy|lra]]. rewrite <- E in K. apply Rmult_lt_reg_r with (py b - py a); lra. }
  assert (D : py b <= py p < py a -> ((exists x, px p < x /\ on_seg a b (x, py p)) <-> side a b p < 0)).
  { intros H. assert (N : py a <> py b) by lra. set (x0 := px a + (py p - py a) / (py b - py a) * (px b - px a)).
    assert (E : (x0 - px p) * (py a - py b) = - side a b p) by (rewrite side_level; unfold x0; field; lra).
    split.
    - intros (x & Hx & Hs). apply (on_seg_level_unique _ _ _ _ N) in Hs. fold x0 in Hs.
      assert (0 < (x0 - px p) * (py a - py b)) by (apply Rmult_lt_0_compat; lra). lra.
    - intros K. exists x0. split; [|apply on_seg_level; [easy|lra]]. apply Rmult_lt_reg_r with (py a - py b); lra. }
  split.
  - intros [[H|H] K]; [left|right]; (split; [easy|]); [now apply U|now apply D].
  - intros [[H K]|[H K]]; (split; [tauto|]); [now apply U|now apply D].
Qed.
Lemma up_down p e : upb p e = true -> downb p e = true -> False.
Proof. rewrite upb_iff, downb_iff. lra. Qed.
Lemma crossb_xor p e : crossb p e = xorb (upb p e && Rlt_bool 0 (side (fst e) (snd e) p)) (downb p e && Rlt_bool (side (fst e) (snd e) p) 0).
Proof.
  unfold crossb. pose proof (up_down p e). destruct (upb p e), (downb p e), (Rlt_bool 0 _), (Rlt_bool _ 0); cbn; try easy; exfalso; auto.
Qed.
(** Going round, one rises above a level as often as one sinks below it. *)
Lemma straddle_xor p e : xorb (upb p e) (downb p e) = xorb (Rlt_bool (py p) (py (fst e))) (Rlt_bool (py p) (py (snd e))).
Proof.
  unfold upb, downb. destruct (Rle_bool_spec (py (fst e)) (py p)), (Rle_bool_spec (py (snd e)) (py p)), (Rlt_bool_spec (py p) (py (fst e))), (Rlt_bool_spec (py p) (py (snd e))); cbn; try easy; lra.
Qed.
Lemma par_straddle_path p a l z : par (fun e => xorb (upb p e) (downb p e)) (path_pairs a l z) = xorb (Rlt_bool (py p) (py a)) (Rlt_bool (py p) (py z)).
Proof.
  revert a. induction l as [|b l IH]; intros a; cbn [path_pairs par].
  - rewrite straddle_xor, xorb_false_r. reflexivity.
  - rewrite IH, straddle_xor. cbn [fst snd]. destruct (Rlt_bool (py p) (py a)), (Rlt_bool (py p) (py b)), (Rlt_bool (py p) (py z)); reflexivity.
Qed.
Lemma par_straddle p l : par (upb p) (closed_edges l) = par (downb p) (closed_edges l).
Proof.
  rewrite <- cyc_pairs_closed. destruct l as [|a l]; [easy|]. cbn [cyc_pairs].
  pose proof (par_straddle_path p a l a) as H. rewrite par_xor, xorb_nilpotent in H. now apply xorb_eq.
Qed.

(** ** C69 *)
Lemma horiz_seg p W q : 0 <= W -> (on_seg p (px p + W, py p) q <-> py q = py p /\ px p <= px q <= px p + W).
Proof.
  intros HW. split.
  - intros (t & Ht & ->). unfold lerp; cbn [px py fst snd]. unfold px, py. split; [ring|]. cbn. nra.
  - intros [E H]. destruct (Req_dec W 0) as [Z|Z].
    + exists 0. split; [lra|]. unfold lerp; apply point_eq; cbn [px py fst snd]; unfold px, py in *; lra.
    + exists ((px q - px p) / W). split.
      * split; [apply Rmult_le_pos; [lra|left; apply Rinv_0_lt_compat; lra]|]. apply Rmult_le_reg_r with W; [lra|]. field_simplify; lra.
      * unfold lerp; apply point_eq; cbn [px py fst snd]; unfold px, py in *; [field; lra|]. rewrite E. ring.
Qed.
Lemma on_seg_bounds a b q : on_seg a b q -> px q <= Rmax (px a) (px b) /\ Rmin (px a) (px b) <= px q /\ Rmin (py a) (py b) <= py q <= Rmax (py a) (py b).
Proof.
  intros (t & Ht & ->). unfold lerp; cbn [px py fst snd]. fold (px a) (px b) (py a) (py b).
  pose proof (Rmax_l (px a) (px b)); pose proof (Rmax_r (px a) (px b)); pose proof (Rmin_l (px a) (px b)); pose proof (Rmin_r (px a) (px b)).
  pose proof (Rmax_l (py a) (py b)); pose proof (Rmax_r (py a) (py b)); pose proof (Rmin_l (py a) (py b)); pose proof (Rmin_r (py a) (py b)).
  repeat split; nra.
Qed.
Definition toggleb (hl : seg R) (p p0 p1 : vec R) : bool :=
  Segment2D_exist_intersection_seg hl (Segment2D_of_points p0 p1) &&
  negb ((Req_bool (vy p0) (vy p) || Req_bool (vy p1) (vy p)) && (Req_bool (vy p0) (vy p1) || Rlt_bool (vy p0) (vy p) || Rlt_bool (vy p1) (vy p))).
Lemma toggle_R p p0 p1 W : 0 <= W -> vx p0 <= vx p + W -> vx p1 <= vx p + W -> ~ on_seg (pt p0) (pt p1) (pt p) ->
  toggleb (Segment2D_of_points p (V (vx p + W) (vy p))) p p0 p1 = crossb (pt p) (pt p0, pt p1).
Proof.
  intros HW H0 H1 NO. apply eq_true_iff_eq. rewrite <- crosses_iff. unfold toggleb, crosses_right. rewrite andb_true_iff, negb_true_iff, exist_intersection_seg_R.
  unfold spts; cbn [s_origin s_terminal Segment2D_of_points fst snd]. change (pt (V (vx p + W) (vy p))) with (px (pt p) + W, py (pt p)).
  assert (X : (exists q, on_seg (pt p) (px (pt p) + W, py (pt p)) q /\ on_seg (pt p0) (pt p1) q) <->
              (exists x, px (pt p) < x /\ on_seg (pt p0) (pt p1) (x, py (pt p)))).
  { split.
    - intros ([x y] & A & B). apply horiz_seg in A; [|easy]. cbn [px py fst snd pt] in A. destruct A as [-> A]. exists x. split; [|exact B].
      destruct (Req_dec x (vx p)) as [E|E]; [|cbn; lra]. exfalso. apply NO. rewrite E in B. exact B.
    - intros (x & A & B). exists (x, py (pt p)). split; [|exact B]. apply horiz_seg; [easy|]. split; [easy|]. cbn [px fst]. split; [lra|].
      apply on_seg_bounds in B. destruct B as [B _]. cbn [px fst pt] in *. assert (Rmax (vx p0) (vx p1) <= vx p + W) by (apply Rmax_lub; lra). lra. }
  rewrite X. split; intros [A B]; [split; [|exact A]|split; [exact B|]].
  - destruct A as (x & _ & A). apply on_seg_bounds in A. destruct A as (_ & _ & A). cbn [py snd pt] in *.
    apply andb_false_iff in B. rewrite !orb_false_iff in B.
    revert A B. unfold Rmin, Rmax. destruct (Rle_dec (vy p0) (vy p1)); intros A B;
    destruct (Req_bool_spec (vy p0) (vy p)), (Req_bool_spec (vy p1) (vy p)), (Req_bool_spec (vy p0) (vy p1)), (Rlt_bool_spec (vy p0) (vy p)), (Rlt_bool_spec (vy p1) (vy p)); try lra; exfalso; intuition discriminate.
  - cbn [py snd pt] in *. apply andb_false_iff. rewrite !orb_false_iff.
    destruct (Req_bool_spec (vy p0) (vy p)), (Req_bool_spec (vy p1) (vy p)), (Req_bool_spec (vy p0) (vy p1)), (Rlt_bool_spec (vy p0) (vy p)), (Rlt_bool_spec (vy p1) (vy p)); auto; exfalso; lra.
Qed.
Lemma contains_loop_R hl p allow es inside :
  (forall e, In e es -> ~ on_seg (pt (fst e)) (pt (snd e)) (pt p)) ->
  (allow = false -> forall e, In e es -> pt (fst e) <> pt (snd e)) ->
  (forall e, In e es -> toggleb hl p (fst e) (snd e) = crossb (pt p) (pt (fst e), pt (snd e))) ->
  contains_loop hl p allow es inside = xorb inside (par (fun e => crossb (pt p) (pt (fst e), pt (snd e))) es).
Proof.
  revert inside. induction es as [|[p0 p1] es IH]; intros inside NO ND HT; cbn [contains_loop par]; [now rewrite xorb_false_r|].
  assert (E1 : negb allow && Segment2D_on_segment (Segment2D_of_points p0 p1) p = false).
  { destruct allow; [easy|]. cbn [negb andb]. apply not_true_iff_false. intros K.
    apply (proj1 (C35_on_segment_R (Segment2D_of_points p0 p1) p)) in K; [|apply (ND eq_refl (p0, p1)); cbn; auto].
    apply (NO (p0, p1)); cbn; auto. }
  rewrite E1.
  assert (E2 : allow && Vector2D_eq p p0 = false).
  { apply not_true_iff_false. rewrite andb_true_iff. unfold Vector2D_eq. rnum. rewrite andb_true_iff, !Req_bool_iff. intros (_ & A & B).
    apply (NO (p0, p1)); [cbn; auto|]. cbn [fst snd]. exists 0. split; [lra|]. unfold lerp, pt; apply point_eq; cbn [px py fst snd]; lra. }
  rewrite E2. rewrite <- (HT (p0, p1)) by (cbn; auto). cbn [fst snd]. unfold toggleb. rnum.
  assert (IH' : forall i, contains_loop hl p allow es i = xorb i (par (fun e => crossb (pt p) (pt (fst e), pt (snd e))) es)).
  { intros i. apply IH; [intros; apply NO|intros Ha e He; apply ND|intros; apply HT]; cbn; auto. }
  destruct (Segment2D_exist_intersection_seg hl (Segment2D_of_points p0 p1)); cbn [andb]; [|rewrite IH', xorb_false_l; easy].
  destruct ((Req_bool (vy p0) (vy p) || Req_bool (vy p1) (vy p)) && _); cbn [negb]; rewrite IH'; [now rewrite xorb_false_l|].
  destruct inside, (par _ es); reflexivity.
Qed.
Lemma in_path_fst {A} (a : A) l z e : In e (path_pairs a l z) -> In (fst e) (a :: l) /\ (In (snd e) (a :: l) \/ snd e = z).
Proof.
  revert a. induction l as [|b l IH]; intros a; cbn [path_pairs].
  - intros [<-|[]]. cbn. auto.
  - intros [<-|H]; [cbn; auto|]. apply IH in H. cbn in *. tauto.
Qed.
Lemma in_closed {A} (l : list A) e : In e (closed_edges l) -> In (fst e) l /\ In (snd e) l.
Proof.
  rewrite <- cyc_pairs_closed. destruct l as [|a l]; [easy|]. cbn [cyc_pairs]. intros H. apply in_path_fst in H. destruct H as [H1 [H2|H2]]; [auto|]. rewrite H2. cbn in *. auto.
Qed.
Lemma contains_parity vs p allow : ~ on_outline (map pt vs) (pt p) ->
  (allow = false -> forall e, In e (closed_edges (map pt vs)) -> fst e <> snd e) ->
  Polygon2D_contains vs p allow = Ok (par (crossb (pt p)) (closed_edges (map pt vs))).
Proof.
  intros NO ND. 
  assert (NO' : forall e, In e (cyc_pairs vs) -> ~ on_seg (pt (fst e)) (pt (snd e)) (pt p)).
  { intros e He K. apply NO. exists (pt (fst e), pt (snd e)). split; [|easy]. rewrite closed_edges_map, <- cyc_pairs_closed. apply in_map_iff. now exists e. }
  assert (ND' : allow = false -> forall e, In e (cyc_pairs vs) -> pt (fst e) <> pt (snd e)).
  { intros HA e He. apply (ND HA (pt (fst e), pt (snd e))). rewrite closed_edges_map, <- cyc_pairs_closed. apply in_map_iff. now exists e. }
  rewrite closed_edges_map, par_map, <- cyc_pairs_closed.
  destruct vs as [|v0 [|v1 vs]].
  - reflexivity.
  - cbn [Polygon2D_contains]. f_equal. cbn. rewrite xorb_false_r.
    assert (allow && Vector2D_eq v0 p = false) as ->.
    { apply not_true_iff_false. rewrite andb_true_iff. unfold Vector2D_eq. rnum. rewrite andb_true_iff, !Req_bool_iff. intros (_ & A & B).
      apply (NO' (v0, v0)); [cbn; auto|]. cbn [fst snd]. exists 0. split; [lra|]. unfold lerp, pt; apply point_eq; cbn [px py fst snd]; lra. }
    symmetry. apply not_true_iff_false. rewrite <- crosses_iff. intros [K _]. cbn in K. lra.
  - set (l := v0 :: v1 :: vs) in *.
    assert (U : Polygon2D_contains l p allow = (bb <- Polygon2D_get_bounding_box l ;;
        if negb (Rect2D_contains bb p) then Ok false else hl <- half_line v0 p bb ;; Ok (contains_loop hl p allow (cyc_pairs l) false))%py) by reflexivity.
    rewrite U. clear U. destruct (C67_bounding_box_R l) as (bb & -> & OK & HB & _); [discriminate|]. cbn [bind].
    assert (HE : forall e, In e (cyc_pairs l) -> In (fst e) l /\ In (snd e) l) by (intros e; rewrite cyc_pairs_closed; apply in_closed).
    assert (RC : Rect2D_contains bb p = true <-> Rect2D_left bb <= vx p <= Rect2D_right bb /\ Rect2D_top bb <= vy p <= Rect2D_bottom bb).
    { rewrite rect_contains_R. unfold rpset. runf. tauto. }
    destruct (Rect2D_contains bb p) eqn:EC; cbn [negb].
    + destruct (proj1 RC eq_refl) as [CX CY].
      unfold half_line. rewrite r_R. cbn [bind]. f_equal.
      set (W := ((Rect2D_right bb - Rect2D_left bb + Rect2D_bottom bb - Rect2D_top bb) + norm (pt (Vector2D_sub v0 p))) * 3).
      match goal with |- contains_loop (Segment2D_of_points p ?v) _ _ _ _ = _ => change v with (V (vx p + W) (vy p)) end.
      assert (HW : 0 <= W /\ Rect2D_right bb <= vx p + W).
      { pose proof (norm_nonneg (pt (Vector2D_sub v0 p))). unfold W. lra. }
      rewrite contains_loop_R; [apply xorb_false_l|exact NO'|exact ND'|].
      intros e He. destruct (HE e He) as [I1 I2]. apply HB in I1, I2. apply toggle_R; [lra|lra|lra|now apply NO'].
    + f_equal. symmetry.
      assert (RC' : ~ (Rect2D_left bb <= vx p <= Rect2D_right bb /\ Rect2D_top bb <= vy p <= Rect2D_bottom bb)) by (rewrite <- RC; discriminate).
      destruct (Rlt_dec (vx p) (Rect2D_left bb)) as [C1|C1].
      * (* all straddling edges are crossed *)
        rewrite <- (xorb_nilpotent (par (upb (pt p)) (closed_edges (map pt l)))) at 1. rewrite par_straddle at 2. rewrite <- par_xor.
        rewrite closed_edges_map, par_map, <- cyc_pairs_closed. apply par_ext. intros e He. destruct (HE e He) as [I1 I2]. apply HB in I1, I2.
        apply eq_true_iff_eq. rewrite <- crosses_iff. unfold crosses_right. cbn [fst snd].
        assert (ST : xorb (upb (pt p) (pt (fst e), pt (snd e))) (downb (pt p) (pt (fst e), pt (snd e))) = true <->
          (py (pt (fst e)) <= py (pt p) < py (pt (snd e)) \/ py (pt (snd e)) <= py (pt p) < py (pt (fst e)))).
        { pose proof (upb_iff (pt p) (pt (fst e), pt (snd e))) as A. pose proof (downb_iff (pt p) (pt (fst e), pt (snd e))) as B. cbn [fst snd] in A, B. rewrite <- A, <- B.
          pose proof (up_down (pt p) (pt (fst e), pt (snd e))). destruct (upb _ _), (downb _ _); cbn; intuition. }
        rewrite ST. split; [tauto|]. intros K. split; [easy|].
        match goal with |- exists x, _ /\ on_seg ?a ?b _ => exists (px a + (py (pt p) - py a) / (py b - py a) * (px b - px a)); assert (OS : on_seg a b (px a + (py (pt p) - py a) / (py b - py a) * (px b - px a), py (pt p))) by (apply on_seg_level; lra) end.
        split; [|exact OS]. apply on_seg_bounds in OS. destruct OS as (_ & OS & _). cbn [px fst] in OS. 
        eapply Rlt_le_trans; [|exact OS]. apply Rlt_le_trans with (Rect2D_left bb); [exact C1|]. apply Rmin_glb; apply I1 || apply I2.
      * apply par_false. intros e He. apply not_true_iff_false. rewrite <- crosses_iff. intros [K1 (x & K2 & K3)]. destruct (HE e He) as [I1 I2]. apply HB in I1, I2.
        apply on_seg_bounds in K3. destruct K3 as (K3 & _ & _). cbn [fst snd px py pt] in *.
        assert (Rmax (vx (fst e)) (vx (snd e)) <= Rect2D_right bb) by (apply Rmax_lub; lra). apply RC'. lra.
Qed.
(** Off the outline, contains is the parity of the number of crossed edges. *)
Theorem C69_parity_R : forall (vs : list (vec R)) (p : vec R) (allow : bool) (n : nat),
  ~ on_outline (map pt vs) (pt p) ->
  (allow = false -> forall e, In e (closed_edges (map pt vs)) -> fst e <> snd e) ->
  count (crosses_right (pt p)) (closed_edges (map pt vs)) n ->
  Polygon2D_contains vs p allow = Ok (Nat.odd n).
Proof.
  intros vs p allow n NO ND HC. rewrite contains_parity by easy. f_equal. symmetry. apply (count_par _ _ _ _ HC). intros; apply crosses_iff.
Qed.
(** The answer does not depend on the starting vertex or the orientation. *)
Lemma closed_rot {A} (l1 l2 : list A) : Permutation (closed_edges (l1 ++ l2)) (closed_edges (l2 ++ l1)).
Proof.
  rewrite <- !cyc_pairs_closed. destruct l1 as [|a l1]; [now rewrite app_nil_r|]. destruct l2 as [|b l2]; [now rewrite app_nil_r|].
  cbn [cyc_pairs app]. rewrite !path_pairs_app. apply Permutation_app_comm.
Qed.
Lemma path_rev {A} (a : A) l z : Permutation (path_pairs z (rev l) a) (map (fun e => (snd e, fst e)) (path_pairs a l z)).
Proof.
  revert a. induction l as [|b l IH]; intros a; cbn [path_pairs rev map fst snd]; [constructor; constructor|].
  rewrite path_pairs_app. cbn [path_pairs]. rewrite IH. apply Permutation_sym, Permutation_cons_append.
Qed.
Lemma closed_rev {A} (l : list A) : Permutation (closed_edges (rev l)) (map (fun e => (snd e, fst e)) (closed_edges l)).
Proof.
  destruct l as [|a l]; [constructor|]. cbn [rev]. rewrite closed_rot. cbn [app]. rewrite <- !cyc_pairs_closed. cbn [cyc_pairs]. apply path_rev.
Qed.
Lemma crossb_flip p e : crossb p (snd e, fst e) = crossb p e.
Proof.
  apply eq_true_iff_eq. rewrite <- !crosses_iff. unfold crosses_right. cbn [fst snd].
  split; intros [H (x & K1 & K2)]; (split; [tauto|]); exists x; (split; [easy|]); now apply on_seg_flip.
Qed.
Theorem C69_start_orientation_R : forall (l1 l2 : list (vec R)) (p : vec R),
  ~ on_outline (map pt (l1 ++ l2)) (pt p) ->
  Polygon2D_contains (l2 ++ l1) p true = Polygon2D_contains (l1 ++ l2) p true /\
  Polygon2D_contains (rev (l1 ++ l2)) p true = Polygon2D_contains (l1 ++ l2) p true.
Proof.
  intros l1 l2 p NO.
  assert (P1 : Permutation (closed_edges (map pt (l2 ++ l1))) (closed_edges (map pt (l1 ++ l2)))) by (rewrite !map_app; apply closed_rot).
  assert (P2 : Permutation (closed_edges (map pt (rev (l1 ++ l2)))) (map (fun e => (snd e, fst e)) (closed_edges (map pt (l1 ++ l2))))) by (rewrite map_rev; apply closed_rev).
  rewrite (contains_parity (l1 ++ l2)), (contains_parity (l2 ++ l1)), (contains_parity (rev (l1 ++ l2))); try easy.
  - rewrite (par_perm _ _ _ P1), (par_perm _ _ _ P2), par_map. split; [easy|]. f_equal. apply par_ext. intros; apply crossb_flip.
  - intros (e & He & Hs). apply (Permutation_in _ P2) in He. apply in_map_iff in He. destruct He as (e' & <- & He'). apply NO. exists e'. split; [easy|]. now apply on_seg_flip.
  - intros (e & He & Hs). apply (Permutation_in _ P1) in He. apply NO. now exists e.
Qed.
Example C69_nonvacuous : let vs := [mkVec 0 0 true; mkVec 4 0 true; mkVec 4 4 true; mkVec 0 4 true] in let p := mkVec 2 2 true in
  ~ on_outline (map pt vs) (pt p) /\ (forall e, In e (closed_edges (map pt vs)) -> fst e <> snd e) /\
  count (crosses_right (pt p)) (closed_edges (map pt vs)) 1.
Proof.
  cbn. split; [|split].
  - intros (e & He & (t & Ht & E)). cbn in He. unfold lerp, pt in *; cbn in *.
    destruct He as [<-|[<-|[<-|[<-|[]]]]]; cbn in E; injection E as E1 E2; unfold px, py in *; cbn in *; lra.
  - intros e [<-|[<-|[<-|[<-|[]]]]]; cbn; intros K; injection K; lra.
  - apply count_no; [intros [K _]; cbn in K; lra|]. apply count_yes.
    { split; cbn; [lra|]. exists 4. split; [lra|]. exists (1/2). split; [lra|]. unfold lerp; apply point_eq; cbn; unfold px, py; cbn; lra. }
    apply count_no; [intros [K _]; cbn in K; lra|]. apply count_no; [|constructor].
    intros [_ (x & K1 & K2)]. apply on_seg_bounds in K2. destruct K2 as [K2 _]. cbn in *. rewrite Rmax_left in K2 by lra. lra.
Qed.

(** ** C70 *)
Definition crosscb (p : point) (e : point * point) : bool :=
  (upb p e && Rle_bool 0 (side (fst e) (snd e) p)) || (downb p e && Rle_bool (side (fst e) (snd e) p) 0).
Lemma crossesc_iff p e : crosses_right_closed p e <-> crosscb p e = true.
Proof.
  destruct e as [a b]. unfold crosses_right_closed, crosscb. rewrite orb_true_iff, !andb_true_iff, upb_iff, downb_iff, !Rle_bool_iff. cbn [fst snd].
  assert (U : py a <= py p < py b -> ((exists x, px p <= x /\ on_seg a b (x, py p)) <-> 0 <= side a b p)).
  { intros H. assert (N : py a <> py b) by lra. set (x0 := px a + (py p - py a) / (py b - py a) * (px b - px a)).
    assert (E : (x0 - px p) * (py b - py a) = side a b p) by (rewrite side_level; unfold x0; field; lra).
    split.
    - intros (x & Hx & Hs). apply (on_seg_level_unique _ _ _ _ N) in Hs. fold x0 in Hs. rewrite <- E. apply Rmult_le_pos; lra.
    - intros K. exists x0. split; [|apply on_seg_level; [easy|lra]]. rewrite <- E in K. apply Rmult_le_reg_r with (py b - py a); lra. }
  assert (D : py b <= py p < py a -> ((exists x, px p <= x /\ on_seg a b (x, py p)) <-> side a b p <= 0)).
  { intros H. assert (N : py a <> py b) by lra. set (x0 := px a + (py p - py a) / (py b - py a) * (px b - px a)).
    assert (E : (x0 - px p) * (py a - py b) = - side a b p) by (rewrite side_level; unfold x0; field; lra).
    split.
    - intros (x & Hx & Hs). apply (on_seg_level_unique _ _ _ _ N) in Hs. fold x0 in Hs.
      assert (0 <= (x0 - px p) * (py a - py b)) by (apply Rmult_le_pos; lra). lra.
    - intros K. exists x0. split; [|apply on_seg_level; [easy|lra]]. apply Rmult_le_reg_r with (py a - py b); lra. }
  split.
  - intros [[H|H] K]; [left|right]; (split; [easy|]); [now apply U|now apply D].
  - intros [[H K]|[H K]]; (split; [tauto|]); [now apply U|now apply D].
Qed.
Lemma togglec_R p p0 p1 W : 0 <= W -> vx p0 <= vx p + W -> vx p1 <= vx p + W ->
  toggleb (Segment2D_of_points p (V (vx p + W) (vy p))) p p0 p1 = crosscb (pt p) (pt p0, pt p1).
Proof.
  intros HW H0 H1. apply eq_true_iff_eq. rewrite <- crossesc_iff. unfold toggleb, crosses_right_closed. rewrite andb_true_iff, negb_true_iff, exist_intersection_seg_R.
  unfold spts; cbn [s_origin s_terminal Segment2D_of_points fst snd]. change (pt (V (vx p + W) (vy p))) with (px (pt p) + W, py (pt p)).
  assert (X : (exists q, on_seg (pt p) (px (pt p) + W, py (pt p)) q /\ on_seg (pt p0) (pt p1) q) <->
              (exists x, px (pt p) <= x /\ on_seg (pt p0) (pt p1) (x, py (pt p)))).
  { split.
    - intros ([x y] & A & B). apply horiz_seg in A; [|easy]. cbn [px py fst snd pt] in A. destruct A as [-> A]. exists x. split; [|exact B]. cbn; lra.
    - intros (x & A & B). exists (x, py (pt p)). split; [|exact B]. apply horiz_seg; [easy|]. split; [easy|]. cbn [px fst]. split; [lra|].
      apply on_seg_bounds in B. destruct B as [B _]. cbn [px fst pt] in *. assert (Rmax (vx p0) (vx p1) <= vx p + W) by (apply Rmax_lub; lra). lra. }
  rewrite X. split; intros [A B]; [split; [|exact A]|split; [exact B|]].
  - destruct A as (x & _ & A). apply on_seg_bounds in A. destruct A as (_ & _ & A). cbn [py snd pt] in *.
    apply andb_false_iff in B. rewrite !orb_false_iff in B.
    revert A B. unfold Rmin, Rmax. destruct (Rle_dec (vy p0) (vy p1)); intros A B;
    destruct (Req_bool_spec (vy p0) (vy p)), (Req_bool_spec (vy p1) (vy p)), (Req_bool_spec (vy p0) (vy p1)), (Rlt_bool_spec (vy p0) (vy p)), (Rlt_bool_spec (vy p1) (vy p)); try lra; exfalso; intuition discriminate.
  - cbn [py snd pt] in *. apply andb_false_iff. rewrite !orb_false_iff.
    destruct (Req_bool_spec (vy p0) (vy p)), (Req_bool_spec (vy p1) (vy p)), (Req_bool_spec (vy p0) (vy p1)), (Rlt_bool_spec (vy p0) (vy p)), (Rlt_bool_spec (vy p1) (vy p)); auto; exfalso; lra.
Qed.
Lemma contains_loop_true hl p es inside :
  (forall e, In e es -> toggleb hl p (fst e) (snd e) = crosscb (pt p) (pt (fst e), pt (snd e))) ->
  contains_loop hl p true es inside = 
  (existsb (fun e => Vector2D_eq p (fst e)) es || xorb inside (par (fun e => crosscb (pt p) (pt (fst e), pt (snd e))) es)).
Proof.
  revert inside. induction es as [|[p0 p1] es IH]; intros inside HT; cbn [contains_loop par existsb negb andb]; [now rewrite xorb_false_r|].
  cbn [fst]. destruct (Vector2D_eq p p0) eqn:E2; [reflexivity|]. cbn [orb].
  pose proof (HT (p0, p1) (or_introl eq_refl)) as HT0. cbn [fst snd] in HT0 |- *. rewrite <- HT0. unfold toggleb.
  assert (IH' : forall i, contains_loop hl p true es i = existsb (fun e => Vector2D_eq p (fst e)) es || xorb i (par (fun e => crosscb (pt p) (pt (fst e), pt (snd e))) es)).
  { intros i. apply IH. intros; apply HT; cbn; auto. }
  destruct (Segment2D_exist_intersection_seg hl (Segment2D_of_points p0 p1)); cbn [andb]; [|rewrite IH', xorb_false_l; easy].
  change (@neqb R NumR) with Req_bool. change (@nltb R NumR) with Rlt_bool.
  destruct ((Req_bool (vy p0) (vy p) || Req_bool (vy p1) (vy p)) && _); cbn [negb]; rewrite IH'; [now rewrite xorb_false_l|].
  destruct inside, (par _ es), (existsb _ es); reflexivity.
Qed.
Lemma veq_iff (p q : vec R) : Vector2D_eq p q = true <-> pt p = pt q.
Proof. unfold Vector2D_eq. rnum. rewrite andb_true_iff, !Req_bool_iff. unfold pt. split; [intros [-> ->]; easy|intros [= -> ->]; easy]. Qed.
Lemma map_fst_path {A} (a : A) l z : map fst (path_pairs a l z) = a :: l.
Proof. revert a. induction l as [|b l IH]; intros a; cbn; [easy|]. now rewrite IH. Qed.
Lemma map_fst_closed {A} (l : list A) : map fst (closed_edges l) = l.
Proof. rewrite <- cyc_pairs_closed. destruct l; [easy|]. apply map_fst_path. Qed.
Lemma exists_vertex (p : vec R) vs : existsb (fun e => Vector2D_eq p (fst e)) (cyc_pairs vs) = true <-> In (pt p) (map pt vs).
Proof.
  rewrite cyc_pairs_closed, existsb_exists. replace (map pt vs) with (map pt (map fst (closed_edges vs))) by now rewrite map_fst_closed. rewrite map_map, in_map_iff.
  split; intros (e & A & B); exists e; [rewrite veq_iff in B|rewrite veq_iff]; split; congruence || easy.
Qed.
(** With the default [allow_on_segment=True]: the exact answer for every point. *)
Theorem C70_contains_R : forall (vs : list (vec R)) (p : vec R) (n : nat),
  count (crosses_right_closed (pt p)) (closed_edges (map pt vs)) n ->
  exists b, Polygon2D_contains vs p true = Ok b /\
    (b = true <-> In (pt p) (map pt vs) \/ Nat.odd n = true).
Proof.
  intros vs p n HC. rewrite (count_par _ (crosscb (pt p)) _ _ HC) by (intros; apply crossesc_iff). clear n HC.
  rewrite closed_edges_map, par_map, <- cyc_pairs_closed.
  destruct vs as [|v0 [|v1 vs]].
  - exists false. split; [reflexivity|]. cbn. intuition.
  - exists (Vector2D_eq v0 p). split; [reflexivity|]. rewrite veq_iff. cbn. rewrite xorb_false_r.
    assert (crosscb (pt p) (pt v0, pt v0) = false) as ->; [|split; [tauto|intros [[K|[]]|K]; [easy|discriminate]]].
    apply not_true_iff_false. rewrite <- crossesc_iff. intros [K _]. cbn in K. lra.
  - set (l := v0 :: v1 :: vs) in *.
    assert (U : Polygon2D_contains l p true = (bb <- Polygon2D_get_bounding_box l ;;
        if negb (Rect2D_contains bb p) then Ok false else hl <- half_line v0 p bb ;; Ok (contains_loop hl p true (cyc_pairs l) false))%py) by reflexivity.
    rewrite U. clear U. destruct (C67_bounding_box_R l) as (bb & -> & OK & HB & _); [discriminate|]. cbn [bind].
    assert (HE : forall e, In e (cyc_pairs l) -> In (fst e) l /\ In (snd e) l) by (intros e; rewrite cyc_pairs_closed; apply in_closed).
    assert (RC : Rect2D_contains bb p = true <-> Rect2D_left bb <= vx p <= Rect2D_right bb /\ Rect2D_top bb <= vy p <= Rect2D_bottom bb).
    { rewrite rect_contains_R. unfold rpset. runf. tauto. }
    destruct (Rect2D_contains bb p) eqn:EC; cbn [negb].
    + destruct (proj1 RC eq_refl) as [CX CY].
      unfold half_line. rewrite r_R. cbn [bind].
      set (W := ((Rect2D_right bb - Rect2D_left bb + Rect2D_bottom bb - Rect2D_top bb) + norm (pt (Vector2D_sub v0 p))) * 3).
      match goal with |- context [contains_loop (Segment2D_of_points p ?v) _ _ _ _] => change v with (V (vx p + W) (vy p)) end.
      assert (HW : 0 <= W /\ Rect2D_right bb <= vx p + W).
      { pose proof (norm_nonneg (pt (Vector2D_sub v0 p))). unfold W. lra. }
      eexists. split; [reflexivity|]. rewrite contains_loop_true.
      * rewrite orb_true_iff, exists_vertex, xorb_false_l. tauto.
      * intros e He. destruct (HE e He) as [I1 I2]. apply HB in I1, I2. apply togglec_R; lra.
    + exists false. split; [easy|]. split; [discriminate|].
      assert (RC' : ~ (Rect2D_left bb <= vx p <= Rect2D_right bb /\ Rect2D_top bb <= vy p <= Rect2D_bottom bb)) by (rewrite <- RC; discriminate).
      intros [K|K].
      * apply in_map_iff in K. destruct K as (v & E & Hv). apply HB in Hv. injection E as E1 E2. rewrite <- E1, <- E2 in RC'. tauto.
      * rewrite <- K. clear K. symmetry.
      destruct (Rlt_dec (vx p) (Rect2D_left bb)) as [C1|C1].
      -- (* all straddling edges are crossed *)
        rewrite <- (xorb_nilpotent (par (upb (pt p)) (closed_edges (map pt l)))). rewrite par_straddle at 2. rewrite <- par_xor.
        rewrite closed_edges_map, par_map, <- cyc_pairs_closed. apply par_ext. intros e He. destruct (HE e He) as [I1 I2]. apply HB in I1, I2.
        apply eq_true_iff_eq. rewrite <- crossesc_iff. unfold crosses_right_closed. cbn [fst snd].
        assert (ST : xorb (upb (pt p) (pt (fst e), pt (snd e))) (downb (pt p) (pt (fst e), pt (snd e))) = true <->
          (py (pt (fst e)) <= py (pt p) < py (pt (snd e)) \/ py (pt (snd e)) <= py (pt p) < py (pt (fst e)))).
        { pose proof (upb_iff (pt p) (pt (fst e), pt (snd e))) as A. pose proof (downb_iff (pt p) (pt (fst e), pt (snd e))) as B. cbn [fst snd] in A, B. rewrite <- A, <- B.
          pose proof (up_down (pt p) (pt (fst e), pt (snd e))). destruct (upb _ _), (downb _ _); cbn; intuition. }
        rewrite ST. split; [tauto|]. intros K. split; [easy|].
        match goal with |- exists x, _ /\ on_seg ?a ?b _ => exists (px a + (py (pt p) - py a) / (py b - py a) * (px b - px a)); assert (OS : on_seg a b (px a + (py (pt p) - py a) / (py b - py a) * (px b - px a), py (pt p))) by (apply on_seg_level; lra) end.
        split; [|exact OS]. apply on_seg_bounds in OS. destruct OS as (_ & OS & _). cbn [px fst] in OS. 
        eapply Rle_trans; [|exact OS]. apply Rle_trans with (Rect2D_left bb); [cbn; lra|]. apply Rmin_glb; apply I1 || apply I2.
      -- apply par_false. intros e He. apply not_true_iff_false. rewrite <- crossesc_iff. intros [K1 (x & K2 & K3)]. destruct (HE e He) as [I1 I2]. apply HB in I1, I2.
        apply on_seg_bounds in K3. destruct K3 as (K3 & _ & _). cbn [fst snd px py pt] in *.
        assert (Rmax (vx (fst e)) (vx (snd e)) <= Rect2D_right bb) by (apply Rmax_lub; lra). apply RC'. lra.
Qed.
Theorem C70_vertices_R : forall (vs : list (vec R)) (v : vec R), In v vs -> Polygon2D_contains vs v true = Ok true.
Proof.
  intros vs v H. destruct (count_exists (crosses_right_closed (pt v)) (closed_edges (map pt vs))) as [n Hn].
  destruct (C70_contains_R vs v n Hn) as (b & -> & Hb). f_equal. apply Hb. left. now apply in_map.
Qed.
(** The default "on the boundary counts as inside" is not kept: a point of an
    edge is reported outside. *)
Theorem C70_edge_point_refuted : exists (vs : list (vec R)) (p : vec R),
  on_outline (map pt vs) (pt p) /\ Polygon2D_contains vs p true = Ok false.
Proof.
  exists [mkVec 0 0 true; mkVec 4 0 true; mkVec 4 4 true; mkVec 0 4 true], (mkVec 0 2 true). split.
  - exists ((0, 4), (0, 0)). split; [cbn; auto|]. exists (1/2). split; [lra|]. unfold lerp; apply point_eq; cbn; unfold px, py; cbn; lra.
  - set (vs := [_; _; _; _]). set (p := mkVec 0 2 true).
    assert (HC : count (crosses_right_closed (pt p)) (closed_edges (map pt vs)) 2).
    { apply count_no; [intros [K _]; cbn in K; lra|]. apply count_yes.
      { split; cbn; [lra|]. exists 4. split; [lra|]. exists (1/2). split; [lra|]. unfold lerp; apply point_eq; cbn; unfold px, py; cbn; lra. }
      apply count_no; [intros [K _]; cbn in K; lra|]. apply count_yes; [|constructor].
      split; cbn; [lra|]. exists 0. split; [lra|]. exists (1/2). split; [lra|]. unfold lerp; apply point_eq; cbn; unfold px, py; cbn; lra. }
    destruct (C70_contains_R vs p 2 HC) as (b & -> & Hb). f_equal. apply not_true_iff_false. rewrite Hb. cbn.
    intros [K|K]; [|discriminate]. unfold pt in K; cbn in K. destruct K as [K|[K|[K|[K|[]]]]]; injection K; lra.
Qed.
Lemma contains_loop_false hl p es inside : (exists e, In e es /\ Segment2D_on_segment (Segment2D_of_points (fst e) (snd e)) p = true) ->
  contains_loop hl p false es inside = false.
Proof.
  revert inside. induction es as [|[p0 p1] es IH]; intros inside (e & He & H); [easy|]. cbn [contains_loop negb andb].
  destruct (Segment2D_on_segment (Segment2D_of_points p0 p1) p) eqn:E; [easy|].
  destruct He as [<-|He]; [cbn in H; congruence|].
  assert (IH' : forall i, contains_loop hl p false es i = false) by (intros i; apply IH; now exists e).
  destruct (Segment2D_exist_intersection_seg _ _); [destruct (_ && _)|]; apply IH'.
Qed.
(** With allow_on_segment=False no boundary point is contained. *)
Theorem C70_boundary_excluded_R : forall (vs : list (vec R)) (p : vec R),
  on_outline (map pt vs) (pt p) -> Polygon2D_contains vs p false = Ok false.
Proof.
  intros vs p (e0 & He & Hs). rewrite closed_edges_map, <- cyc_pairs_closed in He. apply in_map_iff in He. destruct He as (e & <- & He). cbn [fst snd] in Hs.
  assert (ON : exists e, In e (cyc_pairs vs) /\ Segment2D_on_segment (Segment2D_of_points (fst e) (snd e)) p = true).
  { exists e. split; [easy|]. destruct (C35_on_segment_R (Segment2D_of_points (fst e) (snd e)) p) as [A B].
    cbn [s_origin s_terminal Segment2D_of_points] in A, B.
    destruct (classic (pt (fst e) = pt (snd e))) as [E|E]; [|now apply A]. apply B; [easy|]. rewrite <- E in Hs. apply on_seg_same in Hs. injection Hs as _ Hs. exact Hs. }
  destruct vs as [|v0 [|v1 vs]]; [easy|reflexivity|].
  set (l := v0 :: v1 :: vs) in *.
  assert (U : Polygon2D_contains l p false = (bb <- Polygon2D_get_bounding_box l ;;
        if negb (Rect2D_contains bb p) then Ok false else hl <- half_line v0 p bb ;; Ok (contains_loop hl p false (cyc_pairs l) false))%py) by reflexivity.
  rewrite U. destruct (C67_bounding_box_R l) as (bb & -> & _); [discriminate|]. cbn [bind].
  destruct (negb _); [easy|]. unfold half_line. rewrite r_R. cbn [bind]. f_equal. now apply contains_loop_false.
Qed.
(** Interior points are lost too when two consecutive vertices coincide. *)
Theorem C70_repeated_vertex_refuted : exists (vs : list (vec R)) (p : vec R),
  Polygon2D_contains vs p true = Ok true /\ ~ on_outline (map pt vs) (pt p) /\ Polygon2D_contains vs p false = Ok false.
Proof.
  exists [mkVec 0 0 true; mkVec 4 0 true; mkVec 4 2 true; mkVec 4 2 true; mkVec 4 4 true; mkVec 0 4 true], (mkVec 2 2 true).
  set (vs := [_; _; _; _; _; _]). set (p := mkVec 2 2 true).
  assert (NO : ~ on_outline (map pt vs) (pt p)).
  { intros (e & He & (t & Ht & E)). cbn in He. unfold lerp, pt in *; cbn in *.
    destruct He as [<-|[<-|[<-|[<-|[<-|[<-|[]]]]]]]; cbn in E; injection E as E1 E2; unfold px, py in *; cbn in *; lra. }
  split; [|split; [exact NO|]].
  - apply (C69_parity_R vs p true 1 NO); [discriminate|].
    apply count_no; [intros [K _]; cbn in K; lra|]. apply count_no; [intros [K _]; cbn in K; lra|]. apply count_no; [intros [K _]; cbn in K; lra|]. apply count_yes.
    { split; cbn; [lra|]. exists 4. split; [lra|]. exists 0. split; [lra|]. unfold lerp; apply point_eq; cbn; unfold px, py; cbn; lra. }
    apply count_no; [intros [K _]; cbn in K; lra|]. apply count_no; [|constructor].
    intros [_ (x & K1 & K2)]. apply on_seg_bounds in K2. destruct K2 as [K2 _]. cbn in *. rewrite Rmax_left in K2 by lra. lra.
  - unfold vs. set (l := [_; _; _; _; _; _]).
    assert (U : Polygon2D_contains l p false = (bb <- Polygon2D_get_bounding_box l ;;
        if negb (Rect2D_contains bb p) then Ok false else hl <- half_line (mkVec 0 0 true) p bb ;; Ok (contains_loop hl p false (cyc_pairs l) false))%py) by reflexivity.
    rewrite U. destruct (C67_bounding_box_R l) as (bb & -> & _); [discriminate|]. cbn [bind].
    destruct (negb _); [easy|]. unfold half_line. rewrite r_R. cbn [bind]. f_equal. apply contains_loop_false.
    exists (mkVec 4 2 true, mkVec 4 2 true). split; [cbn; auto|]. apply C35_on_segment_R; reflexivity.
Qed.
