(** * P_Polygon: properties C67-C73 of Polygon2D *)
From Coq Require Import ZArith List Bool String Reals Lra Lia Psatz Permutation.
From Flocq Require Import Core BinarySingleNaN.
From Verif Require Import Base Types NumR NumF R_Tac Spec Spec2 Abs M_Angle M_Vector M_Line M_Ray M_Triangle M_Segment M_Circle M_Sector M_Rect M_Polygon
  L_Angle L_Trig P_Angle P_Vector P_Line L_Seg P_Segment P_Ray L_Float P_Triangle P_Circle P_Rect.
Import ListNotations.
Local Open Scope R_scope.

(** ** The edge lists agree *)
Lemma path_pairs_combine {A} (a : A) l z : path_pairs a l z = combine (a :: l) (l ++ [z]).
Proof. revert a. induction l as [|b l IH]; intros a; [reflexivity|]. cbn [path_pairs]. rewrite IH. reflexivity. Qed.
Lemma cyc_pairs_closed {A} (l : list A) : cyc_pairs l = closed_edges l.
Proof. destruct l; [reflexivity|]. apply path_pairs_combine. Qed.
Lemma closed_edges_map {A B} (f : A -> B) l : closed_edges (map f l) = map (fun e => (f (fst e), f (snd e))) (closed_edges l).
Proof.
  destruct l as [|a l]; [reflexivity|]. cbn [map closed_edges]. rewrite <- !(path_pairs_combine a l a), <- (path_pairs_combine (f a) (map f l) (f a)).
  assert (G : forall b z, path_pairs (f b) (map f l) (f z) = map (fun e => (f (fst e), f (snd e))) (path_pairs b l z)).
  { induction l as [|c l IH]; intros b z; [reflexivity|]. cbn. now rewrite IH. }
  apply G.
Qed.
Lemma path_pairs_app {A} (a : A) l1 b l2 z : path_pairs a (l1 ++ b :: l2) z = path_pairs a l1 b ++ path_pairs b l2 z.
Proof. revert a. induction l1 as [|c l1 IH]; intros a; cbn; [reflexivity|]. now rewrite IH. Qed.

(** ** C67 *)
Lemma upd_min_R m y : upd_min (Some m) y = if Rlt_bool y m then Some y else Some m.
Proof. reflexivity. Qed.
Lemma upd_max_R m y : upd_max (Some m) y = if Rlt_bool m y then Some y else Some m.
Proof. reflexivity. Qed.
Lemma fold_min (l : list R) (m : R) : exists x, fold_left upd_min l (Some m) = Some x /\ (x = m \/ In x l) /\ x <= m /\ forall y, In y l -> x <= y.
Proof.
  revert m. induction l as [|y l IH]; intros m; cbn [fold_left].
  - exists m. repeat split; auto; try lra. intros y [].
  - rewrite upd_min_R. destruct (Rlt_bool_spec y m).
    + destruct (IH y) as (x & -> & A & B & C). exists x. split; [easy|]. split; [destruct A as [->|A]; cbn; auto|]. split; [lra|]. intros z [<-|Hz]; auto.
    + destruct (IH m) as (x & -> & A & B & C). exists x. split; [easy|]. split; [destruct A as [->|A]; cbn; auto|]. split; [lra|]. intros z [<-|Hz]; auto. lra.
Qed.
Lemma fold_max (l : list R) (m : R) : exists x, fold_left upd_max l (Some m) = Some x /\ (x = m \/ In x l) /\ m <= x /\ forall y, In y l -> y <= x.
Proof.
  revert m. induction l as [|y l IH]; intros m; cbn [fold_left].
  - exists m. repeat split; auto; try lra. intros y [].
  - rewrite upd_max_R. destruct (Rlt_bool_spec m y).
    + destruct (IH y) as (x & -> & A & B & C). exists x. split; [easy|]. split; [destruct A as [->|A]; cbn; auto|]. split; [lra|]. intros z [<-|Hz]; auto.
    + destruct (IH m) as (x & -> & A & B & C). exists x. split; [easy|]. split; [destruct A as [->|A]; cbn; auto|]. split; [lra|]. intros z [<-|Hz]; auto. lra.
Qed.
Lemma fold_proj (vs : list (vec R)) (upd : option R -> R -> option R) (proj : vec R -> R) m : fold_left (fun m p => upd m (proj p)) vs m = fold_left upd (map proj vs) (m : option R).
Proof. revert m. induction vs as [|v vs IH]; intros m; cbn; [easy|]. apply IH. Qed.
Lemma ext_min vs proj v0 : exists m, bbox_extent (v0 :: vs) upd_min proj = Some m /\ (exists v, In v (v0 :: vs) /\ proj v = m) /\ forall v, In v (v0 :: vs) -> m <= proj v.
Proof.
  unfold bbox_extent. rewrite fold_proj. cbn [map fold_left upd_min].
  destruct (fold_min (map proj vs) (proj v0)) as (x & -> & A & B & C). exists x. split; [easy|]. split.
  - destruct A as [->|A]; [exists v0; cbn; auto|]. apply in_map_iff in A. destruct A as (v & <- & Hv). exists v. cbn; auto.
  - intros v [<-|Hv]; [easy|]. apply C. now apply in_map.
Qed.
Lemma ext_max vs proj v0 : exists m, bbox_extent (v0 :: vs) upd_max proj = Some m /\ (exists v, In v (v0 :: vs) /\ proj v = m) /\ forall v, In v (v0 :: vs) -> proj v <= m.
Proof.
  unfold bbox_extent. rewrite fold_proj. cbn [map fold_left upd_max].
  destruct (fold_max (map proj vs) (proj v0)) as (x & -> & A & B & C). exists x. split; [easy|]. split.
  - destruct A as [->|A]; [exists v0; cbn; auto|]. apply in_map_iff in A. destruct A as (v & <- & Hv). exists v. cbn; auto.
  - intros v [<-|Hv]; [easy|]. apply C. now apply in_map.
Qed.
Theorem C67_bounding_box_R : forall (vs : list (vec R)), vs <> [] ->
  exists r, Polygon2D_get_bounding_box vs = Ok r /\ rect_ok r /\
    (forall v, In v vs -> Rect2D_left r <= vx v <= Rect2D_right r /\ Rect2D_top r <= vy v <= Rect2D_bottom r) /\
    (exists v, In v vs /\ vx v = Rect2D_left r) /\ (exists v, In v vs /\ vx v = Rect2D_right r) /\
    (exists v, In v vs /\ vy v = Rect2D_top r) /\ (exists v, In v vs /\ vy v = Rect2D_bottom r).
Proof.
  intros [|v0 vs] Hne; [easy|]. unfold Polygon2D_get_bounding_box.
  destruct (ext_min vs (@vx R) v0) as (x1 & -> & X1 & X1'). destruct (ext_max vs (@vx R) v0) as (x2 & -> & X2 & X2').
  destruct (ext_min vs (@vy R) v0) as (y1 & -> & Y1 & Y1'). destruct (ext_max vs (@vy R) v0) as (y2 & -> & Y2 & Y2').
  eexists. split; [reflexivity|].
  assert (x1 <= x2) by (apply Rle_trans with (vx v0); [apply X1'|apply X2']; cbn; auto).
  assert (y1 <= y2) by (apply Rle_trans with (vy v0); [apply Y1'|apply Y2']; cbn; auto).
  unfold Rect2D_of_vec_size, Size2D_init, rect_ok. runf.
  rewrite !Rabs_pos_eq by lra. replace (x1 + (x2 - x1)) with x2 by ring. replace (y1 + (y2 - y1)) with y2 by ring.
  split; [lra|]. split; [|easy]. intros v Hv. specialize (X1' v Hv). specialize (X2' v Hv). specialize (Y1' v Hv). specialize (Y2' v Hv). lra.
Qed.
(** bounding_box_center is half way between the extreme coordinates. *)
Theorem C67_center_R : forall (vs : list (vec R)), vs <> [] ->
  exists c l r t b, Polygon2D_bounding_box_center vs = Ok c /\
    In l vs /\ In r vs /\ In t vs /\ In b vs /\
    (forall v, In v vs -> vx l <= vx v <= vx r /\ vy t <= vy v <= vy b) /\
    vx c = (vx l + vx r) / 2 /\ vy c = (vy t + vy b) / 2.
Proof.
  intros vs Hne. destruct (C67_bounding_box_R vs Hne) as (bb & E & _ & H & (l & Hl & El) & (r & Hr & Er) & (t & Ht & Et) & (b & Hb & Eb)).
  exists (Rect2D_center bb), l, r, t, b. unfold Polygon2D_bounding_box_center. rewrite E. cbn [bind].
  repeat (split; [easy|]). rewrite El, Er, Et, Eb. split; [easy|].
  unfold Rect2D_center, V. rnum. cbn [vx vy]. lra.
Qed.
Theorem C67_empty_raises : forall (T : Type) (N : Num T), exists e, @Polygon2D_get_bounding_box T N [] = Raise e.
Proof. intros. eexists. reflexivity. Qed.
Example C67_nonvacuous : [mkVec 1 2 true; mkVec (-3) 4 true] <> ([] : list (vec R)).
Proof. discriminate. Qed.

(** ** C68 *)
Lemma fold_sum {A} (f : A -> R) l s : fold_left (fun s e => s + f e) l s = s + Rsum (map f l).
Proof. revert s. induction l as [|a l IH]; intros s; cbn; [lra|]. rewrite IH. unfold Rsum. cbn. lra. Qed.
Lemma Rsum_app l1 l2 : Rsum (l1 ++ l2) = Rsum l1 + Rsum l2.
Proof. induction l1 as [|a l IH]; unfold Rsum in *; cbn; [lra|]. rewrite IH. lra. Qed.
Definition esum (l : list (vec R * vec R)) : R := Rsum (map (fun e => cross (pt (fst e)) (pt (snd e))) l).
Lemma esum_app l1 l2 : esum (l1 ++ l2) = esum l1 + esum l2.
Proof. unfold esum. now rewrite map_app, Rsum_app. Qed.
Lemma dsa_shoelace (vs : list (vec R)) : Polygon2D_double_signed_area vs = esum (cyc_pairs vs).
Proof.
  assert (G : fold_left (fun s e => s + edge_term e) (cyc_pairs vs) 0 = esum (cyc_pairs vs)).
  { rewrite fold_sum. rewrite Rplus_0_l. unfold esum. f_equal. apply map_ext. intros [a b]. unfold edge_term, cross, pt; cbn. ring. }
  destruct vs as [|a [|b [|c vs]]]; [reflexivity| | |exact G].
  - unfold esum, cross; cbn. ring.
  - unfold esum, cross; cbn. ring.
Qed.
Lemma esum_rot l1 l2 : esum (cyc_pairs (l1 ++ l2)) = esum (cyc_pairs (l2 ++ l1)).
Proof.
  destruct l1 as [|a l1]; [now rewrite app_nil_r|]. destruct l2 as [|b l2]; [now rewrite app_nil_r|].
  cbn [cyc_pairs app]. rewrite !path_pairs_app, !esum_app. lra.
Qed.
Lemma esum_rev a l z : esum (path_pairs a l z) = - esum (path_pairs z (rev l) a).
Proof.
  revert a. induction l as [|b l IH]; intros a; cbn [path_pairs rev].
  - unfold esum, cross; cbn. ring.
  - change ((a, b) :: path_pairs b l z) with ([(a, b)] ++ path_pairs b l z). rewrite path_pairs_app, !esum_app, IH. unfold esum, cross; cbn. ring.
Qed.
Definition translate (t : point) (v : vec R) : vec R := mkVec (vx v + px t) (vy v + py t) (v_valid v).
Lemma esum_trans t a l z : esum (path_pairs (translate t a) (map (translate t) l) (translate t z)) =
  esum (path_pairs a l z) + (cross (pt a) t - cross (pt z) t).
Proof.
  revert a. induction l as [|b l IH]; intros a; cbn [path_pairs map].
  - unfold esum, cross, pt, translate; cbn. unfold px, py. ring.
  - change ((?x) :: path_pairs ?b ?l ?z) with ([x] ++ path_pairs b l z). rewrite !esum_app, IH. unfold esum, cross, pt, translate; cbn. unfold px, py. ring.
Qed.
Theorem C68_area_R : forall (vs : list (vec R)),
  Polygon2D_double_signed_area vs = shoelace (map pt vs) /\
  Polygon2D_area vs = Rabs (shoelace (map pt vs)) / 2 /\ 0 <= Polygon2D_area vs /\
  (Polygon2D_is_counter_clockwise vs = true <-> shoelace (map pt vs) > 0) /\
  (Polygon2D_is_clockwise vs = true <-> shoelace (map pt vs) < 0).
Proof.
  intros vs. assert (E : Polygon2D_double_signed_area vs = shoelace (map pt vs)).
  { rewrite dsa_shoelace. unfold shoelace. rewrite closed_edges_map, map_map, cyc_pairs_closed. reflexivity. }
  unfold Polygon2D_area, Polygon2D_is_counter_clockwise, Polygon2D_is_clockwise. rewrite E. rnum. rewrite !Rlt_bool_iff.
  assert (K : Rabs (shoelace (map pt vs) * (1/2)) = Rabs (shoelace (map pt vs)) / 2) by (rewrite Rabs_mult, (Rabs_pos_eq (1/2)) by lra; lra).
  rewrite K. pose proof (Rabs_pos (shoelace (map pt vs))). repeat split; lra || auto.
Qed.
Theorem C68_rotation_R : forall l1 l2 : list (vec R), Polygon2D_double_signed_area (l1 ++ l2) = Polygon2D_double_signed_area (l2 ++ l1).
Proof. intros. rewrite !dsa_shoelace. apply esum_rot. Qed.
Theorem C68_reversal_R : forall l : list (vec R), Polygon2D_double_signed_area (rev l) = - Polygon2D_double_signed_area l /\ Polygon2D_area (rev l) = Polygon2D_area l.
Proof.
  intros l. assert (E : Polygon2D_double_signed_area (rev l) = - Polygon2D_double_signed_area l).
  { rewrite !dsa_shoelace. destruct l as [|a l]; [unfold esum; cbn; lra|]. cbn [rev]. rewrite esum_rot. cbn [app cyc_pairs].
    rewrite (esum_rev a (rev l) a), rev_involutive. easy. }
  split; [easy|]. unfold Polygon2D_area. rewrite E. rnum. rewrite <- Rabs_Ropp. f_equal. ring.
Qed.
Theorem C68_translation_R : forall (t : point) (l : list (vec R)), Polygon2D_double_signed_area (map (translate t) l) = Polygon2D_double_signed_area l.
Proof. intros t l. rewrite !dsa_shoelace. destruct l as [|a l]; [easy|]. cbn [cyc_pairs map]. rewrite esum_trans. lra. Qed.
(** Cutting along the diagonal from [a] to [b]. *)
Theorem C68_cut_R : forall (a b : vec R) (l1 l2 : list (vec R)),
  Polygon2D_double_signed_area (a :: l1 ++ b :: l2) =
  Polygon2D_double_signed_area (a :: l1 ++ [b]) + Polygon2D_double_signed_area (b :: l2 ++ [a]).
Proof.
  intros. rewrite !dsa_shoelace. cbn [cyc_pairs]. rewrite !path_pairs_app, !esum_app. unfold esum, cross; cbn. ring.
Qed.
Theorem C68_triangle_R : forall a b c : vec R,
  Polygon2D_double_signed_area [a; b; c] = Triangle2D_double_signed_area (mkTri a b c).
Proof. intros. rewrite dsa_shoelace. unfold esum, cross, Triangle2D_double_signed_area; cbn. rnum. cbn. ring. Qed.

(** ** C72 *)
Lemma dist_loop_R p es m : exists m', dist_loop p es m = Ok m' /\
  (es <> [] \/ m <> None -> exists d, m' = Some d /\
     (m = Some d \/ exists e q, In e es /\ on_seg (pt (fst e)) (pt (snd e)) q /\ edist (pt p) q = d) /\
     (forall x, m = Some x -> d <= x) /\ (forall e q, In e es -> on_seg (pt (fst e)) (pt (snd e)) q -> d <= edist (pt p) q)) /\
  (es = [] -> m' = m).
Proof.
  revert m. induction es as [|[a b] es IH]; intros m.
  - exists m. split; [easy|]. split; [|easy]. intros [H|H]; [easy|]. destruct m as [d|]; [|easy]. exists d. split; [easy|]. split; [now left|].
    split; [intros x [= ->]; lra|intros e q []].
  - cbn [dist_loop]. destruct (dist_point_R (Segment2D_of_points a b) p) as (x & -> & (q0 & Hq0 & E0) & Hmin). cbn [bind].
    unfold spts in *. cbn [s_origin s_terminal Segment2D_of_points] in *.
    destruct (IH (upd_min m x)) as (m' & Em & H & _). exists m'. split; [easy|]. split; [|easy]. intros _.
    assert (U : exists u, upd_min m x = Some u /\ (u = x \/ m = Some u) /\ u <= x /\ forall y, m = Some y -> u <= y).
    { destruct m as [y|]; cbn [upd_min].
      - rnum. destruct (Rlt_bool_spec x y); eexists; (split; [reflexivity|]); (split; [auto|]); (split; [lra|]); intros z [= <-]; lra.
      - exists x. repeat split; auto; try lra. discriminate. }
    destruct U as (u & EU & UC & UX & UM). rewrite EU in H. clear EU.
    assert (NN : es <> [] \/ Some u <> None) by (right; intros K; inversion K).
    destruct (H NN) as (d & -> & HC & HX & HM). exists d. split; [easy|]. specialize (HX u eq_refl).
    split; [|split].
    + destruct HC as [[= ->]|(e & q & He & Hq & E)].
      * destruct UC as [-> |UC]; [|now left]. right. exists (a, b), q0. cbn; auto.
      * right. exists e, q. cbn; auto.
    + intros y Hy. specialize (UM y Hy). lra.
    + intros e q [<-|He] Hq; [|now apply (HM e)]. specialize (Hmin q Hq). cbn in Hq. lra.
Qed.
Lemma path_open {A} (a : A) l z : path_pairs a l z = open_pairs (a :: l) ++ [(last (a :: l) a, z)].
Proof.
  revert a. induction l as [|b l IH]; intros a; [reflexivity|]. cbn [path_pairs]. rewrite IH.
  assert (G : forall l (b c c' : A), last (b :: l) c = last (b :: l) c').
  { clear. induction l as [|x l IH]; intros; [reflexivity|]. cbn [last] in *. apply IH. }
  rewrite (G l b b a). reflexivity.
Qed.
Lemma on_seg_flip p q r : on_seg p q r <-> on_seg q p r.
Proof. assert (G : forall p q r, on_seg p q r -> on_seg q p r); [|split; apply G]. intros a b c (t & Ht & ->). exists (1 - t). split; [lra|]. unfold lerp; apply point_eq; cbn [px py fst snd]; ring. Qed.
Theorem C72_outline_dist_R : forall (vs : list (vec R)) (p : vec R), vs <> [] ->
  exists d, Polygon2D_dist vs p false = Ok (Some d) /\ is_min_dist (on_outline (map pt vs)) (pt p) d.
Proof.
  intros vs p Hne.
  assert (OUT : forall q, on_outline (map pt vs) q <-> exists e, In e (cyc_pairs vs) /\ on_seg (pt (fst e)) (pt (snd e)) q).
  { intros q. unfold on_outline. rewrite closed_edges_map, <- cyc_pairs_closed. split.
    - intros (e & He & Hq). apply in_map_iff in He. destruct He as (e' & <- & He'). now exists e'.
    - intros (e & He & Hq). exists (pt (fst e), pt (snd e)). split; [|easy]. apply in_map_iff. now exists e. }
  assert (G : forall d, (exists e q, In e (cyc_pairs vs) /\ on_seg (pt (fst e)) (pt (snd e)) q /\ edist (pt p) q = d) ->
    (forall e q, In e (cyc_pairs vs) -> on_seg (pt (fst e)) (pt (snd e)) q -> d <= edist (pt p) q) -> is_min_dist (on_outline (map pt vs)) (pt p) d).
  { intros d (e & q & He & Hq & E) HM. split.
    - exists q. split; [|easy]. apply OUT. now exists e.
    - intros q' Hq'. apply OUT in Hq'. destruct Hq' as (e' & He' & Hq'). now apply (HM e'). }
  destruct vs as [|a [|b [|c vs]]]; [easy| | |].
  - cbn [Polygon2D_dist]. rewrite r_R. cbn [bind]. eexists. split; [reflexivity|].
    assert (E : norm (pt (Vector2D_sub a p)) = edist (pt p) (pt a)) by (rewrite edist_sym; reflexivity). rewrite E.
    apply G.
    + exists (a, a), (pt a). cbn. split; [auto|]. split; [exists 0; split; [lra|unfold lerp; apply point_eq; cbn; lra]|easy].
    + intros e q [<-|[]] (t & _ & ->). cbn [fst snd]. replace (lerp (pt a) (pt a) t) with (pt a); [lra|]. unfold lerp; apply point_eq; cbn; ring.
  - unfold Polygon2D_dist. cbn [bind]. destruct (dist_loop_R p (open_pairs [a; b]) None) as (m & -> & H & _). cbn [bind].
    destruct H as (d & -> & HC & _ & HM); [left; intros K; inversion K|]. exists d. split; [reflexivity|]. apply G.
    + destruct HC as [HC|(e & q & He & HC)]; [discriminate|]. exists e, q. split; [|easy]. cbn in He. cbn. tauto.
    + intros e q He Hq. cbn in He. destruct He as [<-|[<-|[]]]; [apply (HM (a, b)); cbn; auto|]. apply (HM (a, b)); [cbn; auto|]. cbn in *. now apply on_seg_flip.
  - assert (U : Polygon2D_dist (a :: b :: c :: vs) p false = (m <- dist_loop p (open_pairs (a :: b :: c :: vs)) None ;; dist_loop p [(last (a :: b :: c :: vs) a, a)] m)%py) by reflexivity.
    rewrite U. clear U. set (l := b :: c :: vs) in *.
    destruct (dist_loop_R p (open_pairs (a :: l)) None) as (m & -> & H & _). cbn [bind].
    destruct (dist_loop_R p [(last (a :: l) a, a)] m) as (m' & -> & H' & _).
    destruct H as (d & -> & HC & _ & HM); [left; intros K; inversion K|].
    destruct H' as (d' & -> & HC' & HX' & HM'); [left; intros K; inversion K|]. specialize (HX' d eq_refl).
    exists d'. split; [reflexivity|]. apply G; cbn [cyc_pairs]; rewrite path_open.
    + destruct HC' as [[= ->]|(e & q & He & Hq)].
      * destruct HC as [HC|(e & q & He & Hq)]; [discriminate|]. exists e, q. rewrite in_app_iff. auto.
      * exists e, q. rewrite in_app_iff. auto.
    + intros e q He Hq. rewrite in_app_iff in He. destruct He as [He|He]; [specialize (HM e q He Hq); lra|now apply (HM' e)].
Qed.
(** As a plane figure: 0 for contained points, the outline distance otherwise. *)
Theorem C72_plane_dist : forall (T : Type) (N : Num T) (vs : list (vec T)) (p : vec T) (b : bool), (2 <= List.length vs)%nat ->
  Polygon2D_contains vs p true = Ok b ->
  Polygon2D_dist vs p true = if b then Ok (Some (num 0)) else Polygon2D_dist vs p false.
Proof.
  intros T N [|v0 [|v1 vs]] p b HL E; cbn in HL; try lia. unfold Polygon2D_dist. rewrite E. cbn [bind]. now destruct b.
Qed.
Example C72_nonvacuous : [mkVec 1 2 true; mkVec (-3) 4 true; mkVec 0 0 true] <> ([] : list (vec R)).
Proof. discriminate. Qed.
