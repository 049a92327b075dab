(** * P_Polygon4: property C73, clipping *)
From Coq Require Import ZArith List Bool String Reals Lra Lia Psatz Permutation Classical.
From Flocq Require Import Core.
From Verif Require Import Base Types NumR R_Tac Spec Spec2 Abs M_Vector M_Line M_Segment M_Rect M_Polygon
  L_Angle L_Seg P_Segment P_Line P_Circle P_Rect P_Polygon P_Polygon2 P_Polygon3.
Import ListNotations.
Local Open Scope R_scope.

Lemma dot_lerp u a b t : dot u (lerp a b t) = (1 - t) * dot u a + t * dot u b.
Proof. unfold dot, lerp, px, py; cbn [fst snd]. ring. Qed.

(** ** Crossing parity and half planes *)
(** Edges on the far side of a line from [q]: their crossings telescope. *)
Definition far (u q a : point) : bool := Rlt_bool 0 (px u) && Rlt_bool (py q) (py a).
Lemma far_edge u k q a b : dot u q < k -> k <= dot u a -> k <= dot u b ->
  crossb q (a, b) = xorb (far u q a) (far u q b).
Proof.
  intros Hq Ha Hb.
  assert (G : (upb q (a, b) = true \/ downb q (a, b) = true) -> (crossb q (a, b) = true <-> 0 < px u)).
  { intros S. rewrite upb_iff, downb_iff in S. cbn [fst snd] in S. rewrite <- crosses_iff.
    assert (N : py a <> py b) by (intros E; lra).
    assert (ON : on_seg a b (px a + (py q - py a) / (py b - py a) * (px b - px a), py q)) by (apply on_seg_level; lra).
    set (x := px a + _) in *.
    assert (D : 0 < px u * (x - px q)).
    { destruct ON as (t & Ht & E). assert (k <= dot u (x, py q)).
      { rewrite E, dot_lerp. assert (0 <= t * (dot u b - k)) by (apply Rmult_le_pos; lra). assert (0 <= (1 - t) * (dot u a - k)) by (apply Rmult_le_pos; lra). lra. }
      unfold dot in *. cbn [px py fst snd] in *. unfold px, py in *; cbn [fst snd] in *. lra. }
    split.
    - intros (_ & x' & Hx & ON'). cbn [fst snd] in ON'. apply on_seg_level_unique in ON'; [|easy]. fold x in ON'. subst x'.
      destruct (Rlt_dec 0 (px u)) as [|N']; [easy|]. exfalso. assert (0 <= - px u * (x - px q)) by (apply Rmult_le_pos; lra). lra.
    - intros Hu. split; [cbn [fst snd]; tauto|]. exists x. split; [|exact ON]. assert (0 < x - px q); [|lra]. apply Rmult_lt_reg_l with (px u); lra. }
  pose proof (straddle_xor q (a, b)) as SX. cbn [fst snd] in SX.
  unfold far. destruct (Rlt_bool_spec 0 (px u)) as [Hu|Hu]; cbn [andb].
  - rewrite <- SX. destruct (upb q (a, b)) eqn:EU.
    + assert (downb q (a, b) = false) as ->. { destruct (downb q (a, b)) eqn:ED; [|easy]. exfalso. exact (up_down _ _ EU ED). }
      cbn. apply G; auto.
    + destruct (downb q (a, b)) eqn:ED; cbn; [apply G; auto|]. unfold crossb. now rewrite EU, ED.
  - cbn. destruct (crossb q (a, b)) eqn:EC; [|easy]. exfalso.
    assert (S : upb q (a, b) = true \/ downb q (a, b) = true). { unfold crossb in EC. destruct (upb q (a, b)); [now left|]. destruct (downb q (a, b)); [now right|]. discriminate. }
    apply G in S. pose proof (proj1 S eq_refl). lra.
Qed.
Lemma far_path u k q b l z : dot u q < k -> (forall v, In v (b :: l ++ [z]) -> k <= dot u v) ->
  par (crossb q) (path_pairs b l z) = xorb (far u q b) (far u q z).
Proof.
  intros Hq. revert b. induction l as [|c l IH]; intros b H; cbn [path_pairs par].
  - rewrite (far_edge u k) by (try easy; apply H; cbn; auto). now rewrite xorb_false_r.
  - rewrite (far_edge u k), IH by (try easy; try (intros v Hv; apply H; cbn in *; tauto); apply H; cbn; auto).
    destruct (far u q b), (far u q c), (far u q z); reflexivity.
Qed.
(** A polygon on the far side of a line does not contain [q]. *)
Lemma far_closed u k q l : dot u q < k -> (forall v, In v l -> k <= dot u v) -> par (crossb q) (closed_edges l) = false.
Proof.
  intros Hq H. rewrite <- cyc_pairs_closed. destruct l as [|a l]; [easy|]. cbn [cyc_pairs].
  rewrite (far_path u k); [apply xorb_nilpotent|easy|]. intros v Hv. apply H. cbn in *. rewrite in_app_iff in Hv. cbn in Hv. intuition.
Qed.
Lemma far_outline u k q l : dot u q < k -> (forall v, In v l -> k <= dot u v) -> ~ on_outline l q.
Proof.
  intros Hq H ([a b] & He & (t & Ht & E)). apply in_closed in He. destruct He as [I1 I2]. apply H in I1, I2. cbn [fst snd] in *.
  subst q. rewrite dot_lerp in Hq. assert (0 <= t * (dot u b - k)) by (apply Rmult_le_pos; lra). assert (0 <= (1 - t) * (dot u a - k)) by (apply Rmult_le_pos; lra). lra.
Qed.

(** Cutting an edge at one of its points keeps the crossings. *)
Lemma cut_edge q a b c : on_seg a b c -> crossb q (a, b) = xorb (crossb q (a, c)) (crossb q (c, b)).
Proof.
  intros (t & Ht & E). rewrite !crossb_xor. cbn [fst snd].
  assert (CY : py c = (1 - t) * py a + t * py b) by (rewrite E; unfold lerp; cbn; ring).
  assert (S1 : side a c q = t * side a b q) by (rewrite !side_level, E; unfold lerp, px, py; cbn [fst snd]; ring).
  assert (S2 : side c b q = (1 - t) * side a b q) by (rewrite !side_level, E; unfold lerp, px, py; cbn [fst snd]; ring).
  assert (SG : forall s, 0 < s -> Rlt_bool 0 (s * side a b q) = Rlt_bool 0 (side a b q) /\ Rlt_bool (s * side a b q) 0 = Rlt_bool (side a b q) 0).
  { intros s Hs. split; apply eq_true_iff_eq; rewrite !Rlt_bool_iff; split; intros K.
    - apply Rmult_lt_reg_l with s; lra. - apply Rmult_lt_0_compat; lra.
    - apply Rmult_lt_reg_l with s; lra. - assert (0 < s * - side a b q) by (apply Rmult_lt_0_compat; lra). lra. }
  destruct (Req_dec t 0) as [T0|T0].
  { assert (c = a) as ->. { rewrite E, T0. unfold lerp; apply point_eq; cbn; unfold px, py; ring. }
    assert (upb q (a, a) = false /\ downb q (a, a) = false) as [-> ->].
    { unfold upb, downb; cbn [fst snd]. destruct (Rle_bool_spec (py a) (py q)), (Rlt_bool_spec (py q) (py a)); cbn; split; try easy; lra. }
    cbn [andb]. rewrite xorb_false_l. now destruct (_ && _), (_ && _). }
  destruct (Req_dec t 1) as [T1|T1].
  { assert (c = b) as ->. { rewrite E, T1. unfold lerp; apply point_eq; cbn; unfold px, py; ring. }
    assert (upb q (b, b) = false /\ downb q (b, b) = false) as [-> ->].
    { unfold upb, downb; cbn [fst snd]. destruct (Rle_bool_spec (py b) (py q)), (Rlt_bool_spec (py q) (py b)); cbn; split; try easy; lra. }
    cbn [andb]. now rewrite !xorb_false_r. }
  rewrite S1, S2. destruct (SG t ltac:(lra)) as [-> ->]. destruct (SG (1 - t) ltac:(lra)) as [-> ->].
  destruct (Rle_dec (py a) (py b)) as [L|L].
  - assert (B : py a <= py c <= py b). { rewrite CY. assert (0 <= t * (py b - py a)) by (apply Rmult_le_pos; lra). assert (0 <= (1 - t) * (py b - py a)) by (apply Rmult_le_pos; lra). lra. }
    unfold upb, downb; cbn [fst snd].
    destruct (Rle_bool_spec (py a) (py q)), (Rle_bool_spec (py b) (py q)), (Rle_bool_spec (py c) (py q)), (Rlt_bool_spec (py q) (py a)), (Rlt_bool_spec (py q) (py b)), (Rlt_bool_spec (py q) (py c)); cbn; try lra; now destruct (Rlt_bool 0 (side a b q)), (Rlt_bool (side a b q) 0).
  - assert (B : py b <= py c <= py a). { rewrite CY. assert (0 <= t * (py a - py b)) by (apply Rmult_le_pos; lra). assert (0 <= (1 - t) * (py a - py b)) by (apply Rmult_le_pos; lra). lra. }
    unfold upb, downb; cbn [fst snd].
    destruct (Rle_bool_spec (py a) (py q)), (Rle_bool_spec (py b) (py q)), (Rle_bool_spec (py c) (py q)), (Rlt_bool_spec (py q) (py a)), (Rlt_bool_spec (py q) (py b)), (Rlt_bool_spec (py q) (py c)); cbn; try lra; now destruct (Rlt_bool 0 (side a b q)), (Rlt_bool (side a b q) 0).
Qed.

(** ** Dropping the vertices outside a half plane *)
Definition hb (u : point) (k : R) (q : point) : bool := Rle_bool (dot u q) k.
Lemma hb_iff u k q : hb u k q = true <-> dot u q <= k.
Proof. apply Rle_bool_iff. Qed.
Lemma hb_false u k q : hb u k q = false <-> k < dot u q.
Proof. rewrite <- not_true_iff_false, hb_iff. lra. Qed.
(** the edge stays on one side *)
Definition one_side (u : point) (k : R) (e : point * point) : Prop :=
  (dot u (fst e) <= k /\ dot u (snd e) <= k) \/ (k <= dot u (fst e) /\ k <= dot u (snd e)).
Lemma filter_path u k q b c l z : dot u q < k -> dot u z <= k ->
  (hb u k b = true -> c = b) -> (hb u k b = false -> dot u c = k) ->
  (forall e, In e (path_pairs b l z) -> one_side u k e) ->
  par (crossb q) (path_pairs c (filter (hb u k) l) z) = xorb (par (crossb q) (path_pairs b l z)) (if hb u k b then false else xorb (far u q c) (far u q b)) /\
  (forall e, In e (path_pairs c (filter (hb u k) l) z) -> In e (path_pairs b l z) \/ (dot u (fst e) = k /\ dot u (snd e) = k)).
Proof.
  intros Hq Hz. revert b c. induction l as [|d l IH]; intros b c Hc1 Hc2 HE; cbn [filter path_pairs].
  - destruct (hb u k b) eqn:HB; [rewrite Hc1 by easy; split; [now rewrite xorb_false_r|auto]|].
    specialize (Hc2 eq_refl). apply hb_false in HB. destruct (HE (b, z) ltac:(cbn; auto)) as [[H1 _]|[_ H2]]; cbn [fst snd] in *; [lra|].
    split.
    + cbn [par]. rewrite !(far_edge u k) by (try easy; lra). destruct (far u q b), (far u q c), (far u q z); reflexivity.
    + intros e [<-|[]]. right. cbn. lra.
  - cbn [path_pairs] in HE. assert (HE' : forall e, In e (path_pairs d l z) -> one_side u k e) by (intros; apply HE; cbn; auto).
    pose proof (HE (b, d) ltac:(cbn; auto)) as Hbd. unfold one_side in Hbd; cbn [fst snd] in Hbd.
    destruct (hb u k d) eqn:HD.
    + cbn [path_pairs par]. destruct (IH d d (fun _ => eq_refl) ltac:(congruence) HE') as [IH1 IH2]. rewrite HD, xorb_false_r in IH1. rewrite IH1.
      destruct (hb u k b) eqn:HB.
      * rewrite Hc1 by easy. split; [now rewrite xorb_false_r|]. intros e [<-|He]; [cbn; auto|]. apply IH2 in He. cbn. tauto.
      * specialize (Hc2 eq_refl). apply hb_false in HB. apply hb_iff in HD.
        split.
        -- rewrite !(far_edge u k) by (try easy; lra). destruct (far u q b), (far u q c), (far u q d), (par (crossb q) (path_pairs d l z)); reflexivity.
        -- intros e [<-|He]; [right; cbn; lra|]. apply IH2 in He. cbn. tauto.
    + apply hb_false in HD as HD'. destruct Hbd as [Hbd|Hbd]; [lra|].
      destruct (hb u k b) eqn:HB.
      * rewrite Hc1 by easy. apply hb_iff in HB. destruct (IH d b ltac:(congruence) ltac:(intros; lra) HE') as [IH1 IH2]. rewrite HD in IH1. rewrite IH1. cbn [par]. rewrite (far_edge u k) by (try easy; lra).
        split; [destruct (far u q b), (far u q d), (par (crossb q) (path_pairs d l z)); reflexivity|]. intros e He. apply IH2 in He. cbn. tauto.
      * destruct (IH d c ltac:(congruence) ltac:(intros; now apply Hc2) HE') as [IH1 IH2]. rewrite HD in IH1. rewrite IH1. cbn [par]. rewrite (far_edge u k) by (try easy; lra).
        split; [destruct (far u q b), (far u q c), (far u q d), (par (crossb q) (path_pairs d l z)); reflexivity|]. intros e He. apply IH2 in He. cbn. tauto.
Qed.
Lemma filter_closed u k l : (forall e, In e (closed_edges l) -> one_side u k e) ->
  (forall q, dot u q < k -> par (crossb q) (closed_edges (filter (hb u k) l)) = par (crossb q) (closed_edges l)) /\
  (forall e, In e (closed_edges (filter (hb u k) l)) -> In e (closed_edges l) \/ (dot u (fst e) = k /\ dot u (snd e) = k)).
Proof.
  intros HE.
  destruct (classic (exists v, In v l /\ hb u k v = true)) as [(v & Hv & HB)|N].
  - apply in_split in Hv. destruct Hv as (l1 & l2 & ->).
    assert (P1 : Permutation (closed_edges (l1 ++ v :: l2)) (closed_edges ((v :: l2) ++ l1))) by apply closed_rot.
    assert (P2 : Permutation (closed_edges (filter (hb u k) (l1 ++ v :: l2))) (closed_edges (filter (hb u k) ((v :: l2) ++ l1)))) by (rewrite !filter_app; apply closed_rot).
    set (l := (v :: l2) ++ l1) in *. 
    assert (HE' : forall e, In e (closed_edges l) -> one_side u k e). { intros e He. apply HE. now apply (Permutation_in _ (Permutation_sym P1)). }
    assert (EL : closed_edges l = path_pairs v (l2 ++ l1) v) by (rewrite <- cyc_pairs_closed; reflexivity).
    assert (EF : closed_edges (filter (hb u k) l) = path_pairs v (filter (hb u k) (l2 ++ l1)) v).
    { rewrite <- cyc_pairs_closed. unfold l. cbn [app filter]. rewrite HB. reflexivity. }
    rewrite EL in HE'.
    assert (F : forall q, dot u q < k -> _) by (intros q Hq; exact (filter_path u k q v v (l2 ++ l1) v Hq (proj1 (hb_iff u k v) HB) (fun _ => eq_refl) ltac:(congruence) HE')).
    split.
    + intros q Hq. rewrite (par_perm _ _ _ P1), (par_perm _ _ _ P2), EL, EF. destruct (F q Hq) as [-> _]. now rewrite HB, xorb_false_r.
    + intros e He. apply (Permutation_in _ P2) in He. rewrite EF in He.
      assert (G : In e (path_pairs v (l2 ++ l1) v) \/ (dot u (fst e) = k /\ dot u (snd e) = k)).
      { destruct (classic (exists q, dot u q < k)) as [[q Hq]|NQ]; [now apply (F q Hq)|].
        (* the normal vector vanishes: everything is on one side *)
        assert (NQ' : forall q, k <= dot u q) by (intros q; destruct (Rlt_dec (dot u q) k); [exfalso; apply NQ; now exists q|lra]).
        right. assert (IN : In (fst e) (filter (hb u k) l) /\ In (snd e) (filter (hb u k) l)) by (apply in_closed; now rewrite EF).
        destruct IN as [I1 I2]. apply filter_In in I1, I2. destruct I1 as [_ I1], I2 as [_ I2]. apply hb_iff in I1, I2. pose proof (NQ' (fst e)). pose proof (NQ' (snd e)). lra. }
      destruct G as [G|G]; [left|now right]. apply (Permutation_in _ (Permutation_sym P1)). now rewrite EL.
  - assert (F : filter (hb u k) l = []).
    { destruct (filter (hb u k) l) as [|v t] eqn:E; [easy|]. exfalso. apply N. exists v. apply filter_In. rewrite E. cbn; auto. }
    rewrite F. split; [|easy]. intros q Hq. symmetry. apply (far_closed u k); [easy|]. intros v Hv.
    destruct (hb u k v) eqn:E; [exfalso; apply N; now exists v|]. apply hb_false in E. lra.
Qed.

(** ** The clipping loop *)
Section Clip.
  Variables (u : point) (k : R) (l : line R).
  Hypothesis Hl : forall q, lpts l q <-> dot u q = k.
  Definition reg (v : vec R) : bool := hb u k (pt v).
  Definition cutv (e : vec R * vec R) : vec R :=
    match Line2D_intersection l (Line2D_of_points (fst e) (snd e)) with Ok v => v | Raise _ => fst e end.
  Definition ins (e : vec R * vec R) : list (vec R) :=
    if xorb (reg (fst e)) (reg (snd e)) then [cutv e; snd e] else [snd e].
  Definition split_edge (e : vec R * vec R) : list (vec R * vec R) :=
    if xorb (reg (fst e)) (reg (snd e)) then [(fst e, cutv e); (cutv e, snd e)] else [e].
  (** the cut of the edge is not refused *)
  Definition clean (e : vec R * vec R) : Prop :=
    reg (fst e) <> reg (snd e) -> Rabs (l_a l * (vx (snd e) - vx (fst e)) + l_b l * (vy (snd e) - vy (fst e))) >= 1/1000000.
  Lemma cut_ok e : clean e -> xorb (reg (fst e)) (reg (snd e)) = true ->
    Line2D_intersection l (Line2D_of_points (fst e) (snd e)) = Ok (cutv e) /\ v_valid (cutv e) = true /\
    dot u (pt (cutv e)) = k /\ on_seg (pt (fst e)) (pt (snd e)) (pt (cutv e)).
  Proof.
    destruct e as [p0 p1]. unfold clean, cutv; cbn [fst snd]. intros C X.
    destruct (C22_intersection_R l (Line2D_of_points p0 p1)) as (v & -> & V1 & _ & V2 & _).
    assert (NR : reg p0 <> reg p1) by (intros E; rewrite E, xorb_nilpotent in X; discriminate).
    specialize (C NR).
    assert (VV : v_valid v = true). { apply V1. rewrite of_points_R; cbn [l_a l_b]. replace (l_a l * (vx p1 - vx p0) - l_b l * - (vy p1 - vy p0)) with (l_a l * (vx p1 - vx p0) + l_b l * (vy p1 - vy p0)) by ring. exact C. }
    destruct (proj2 (V2 VV (pt v)) eq_refl) as [I1 I2]. apply Hl in I1. rewrite lpts_of_points in I2.
    split; [easy|]. split; [easy|]. split; [easy|].
    assert (NP : pt p0 <> pt p1) by (unfold reg in NR; congruence).
    apply collinear_on_line2 in I2; [|easy]. destruct I2 as [t E]. rewrite E, dot_lerp in I1.
    exists t. split; [|exact E]. unfold reg in X. set (A := dot u (pt p0)) in *. set (B := dot u (pt p1)) in *.
    assert (KK : A <= k < B \/ B <= k < A).
    { destruct (hb u k (pt p0)) eqn:E0, (hb u k (pt p1)) eqn:E1; try discriminate;
        [apply hb_iff in E0; apply hb_false in E1; now left|apply hb_iff in E1; apply hb_false in E0; now right]. }
    assert (ET : k - A = t * (B - A)) by lra.
    destruct KK as [KK|KK].
    - split; [apply Rmult_le_reg_r with (B - A); lra|apply Rmult_le_reg_r with (B - A); lra].
    - split; [apply Rmult_le_reg_r with (A - B); lra|apply Rmult_le_reg_r with (A - B); lra].
  Qed.
  Lemma clip_loop_filter es acc : (forall e, In e es -> clean e) ->
    clip_loop reg l es acc = Ok (acc ++ filter reg (flat_map ins es)).
  Proof.
    revert acc. induction es as [|[p0 p1] es IH]; intros acc H; cbn [clip_loop flat_map filter]; [now rewrite app_nil_r|].
    assert (H' : forall e, In e es -> clean e) by (intros; apply H; cbn; auto).
    pose proof (cut_ok (p0, p1) (H _ ltac:(cbn; auto))) as CO. cbn [fst snd] in CO. unfold ins at 1; cbn [fst snd].
    destruct (reg p0) eqn:R0, (reg p1) eqn:R1; cbn [xorb] in *.
    - rewrite IH by easy. cbn [app filter]. rewrite R1, <- app_assoc. reflexivity.
    - destruct (CO eq_refl) as (C1 & C2 & D & _). rewrite C1; cbn [bind]. rewrite C2; cbn [negb]. rewrite IH by easy. cbn [app filter]. rewrite R1.
      replace (reg (cutv (p0, p1))) with true by (symmetry; apply hb_iff; lra). now rewrite <- app_assoc.
    - destruct (CO eq_refl) as (C1 & C2 & D & _). rewrite C1; cbn [bind]. rewrite C2; cbn [negb]. rewrite IH by easy. cbn [app filter]. rewrite R1.
      replace (reg (cutv (p0, p1))) with true by (symmetry; apply hb_iff; lra). now rewrite <- app_assoc.
    - rewrite IH by easy. cbn [app filter]. now rewrite R1.
  Qed.
  Lemma ins_path b m z : exists W, flat_map ins (path_pairs b m z) = W ++ [z] /\ path_pairs b W z = flat_map split_edge (path_pairs b m z).
  Proof.
    revert b. induction m as [|c m IH]; intros b; cbn [path_pairs flat_map].
    - unfold ins, split_edge; cbn [fst snd]. destruct (xorb (reg b) (reg z)); [exists [cutv (b, z)]|exists []]; now cbn.
    - destruct (IH c) as (W & E1 & E2). rewrite E1. exists (ins (b, c) ++ W). split; [now rewrite app_assoc|].
      unfold ins, split_edge at 1; cbn [fst snd]. destruct (xorb (reg b) (reg c)); cbn [app path_pairs]; now rewrite E2.
  Qed.
  Lemma filter_map_pt (m : list (vec R)) : map pt (filter reg m) = filter (hb u k) (map pt m).
  Proof. induction m as [|a m IH]; cbn; [easy|]. change (reg a) with (hb u k (pt a)). destruct (hb u k (pt a)); cbn; now rewrite IH. Qed.
  Lemma par_flat {A B} (f : B -> bool) (g : A -> list B) m : par f (flat_map g m) = par (fun a => par f (g a)) m.
  Proof. induction m as [|a m IH]; cbn; [easy|]. now rewrite par_app, IH. Qed.

  Definition pe (e : vec R * vec R) : point * point := (pt (fst e), pt (snd e)).
  Lemma clip_step vs : (forall e, In e (cyc_pairs vs) -> clean e) ->
    exists vs', get_line_clipped_polygon reg vs l = Ok vs' /\
      (forall v, In v vs' -> dot u (pt v) <= k) /\
      (forall v, In v (map pt vs') -> In v (map pt vs) \/ (on_outline (map pt vs) v /\ dot u v = k)) /\
      (forall q, on_outline (map pt vs') q -> on_outline (map pt vs) q \/ dot u q = k) /\
      (forall q, dot u q < k -> par (crossb q) (closed_edges (map pt vs')) = par (crossb q) (closed_edges (map pt vs))).
  Proof.
    intros HC. unfold get_line_clipped_polygon. rewrite clip_loop_filter by easy. cbn [app]. eexists. split; [reflexivity|].
    assert (IN : forall v, In v (flat_map ins (cyc_pairs vs)) -> In v vs \/ (on_outline (map pt vs) (pt v) /\ dot u (pt v) = k)).
    { intros v Hv. apply in_flat_map in Hv. destruct Hv as (e & He & Hv).
      assert (I2 : In (snd e) vs) by (rewrite cyc_pairs_closed in He; now apply in_closed in He).
      unfold ins in Hv. destruct (xorb _ _) eqn:X; cbn in Hv.
      - destruct Hv as [<-|[<-|[]]]; [|now left]. right. destruct (cut_ok e (HC e He) X) as (_ & _ & D & S). split; [|easy].
        exists (pe e). split; [|exact S]. rewrite closed_edges_map, <- cyc_pairs_closed. apply in_map_iff. now exists e.
      - destruct Hv as [<-|[]]. now left. }
    split. { intros v Hv. apply filter_In in Hv. destruct Hv as [_ Hv]. now apply hb_iff. }
    split. { intros v Hv. apply in_map_iff in Hv. destruct Hv as (v' & <- & Hv). apply filter_In in Hv. destruct Hv as [Hv _]. apply IN in Hv. destruct Hv as [Hv|Hv]; [left; now apply in_map|now right]. }
    rewrite filter_map_pt.
    assert (PW : Permutation (closed_edges (map pt (flat_map ins (cyc_pairs vs)))) (map pe (flat_map split_edge (cyc_pairs vs)))).
    { destruct vs as [|a m]; [constructor|]. cbn [cyc_pairs]. destruct (ins_path a m a) as (W & -> & <-).
      rewrite closed_edges_map. apply Permutation_map. etransitivity; [apply (closed_rot W [a])|]. rewrite <- cyc_pairs_closed. reflexivity. }
    assert (OS : forall e, In e (closed_edges (map pt (flat_map ins (cyc_pairs vs)))) -> one_side u k e).
    { intros e He. apply (Permutation_in _ PW) in He. apply in_map_iff in He. destruct He as (e1 & <- & He). apply in_flat_map in He. destruct He as (e2 & He2 & He1).
      unfold split_edge in He1. destruct (xorb _ _) eqn:X.
      - destruct (cut_ok e2 (HC e2 He2) X) as (_ & _ & D & _). unfold reg in X.
        destruct He1 as [<-|[<-|[]]]; unfold one_side, pe; cbn [fst snd]; rewrite D.
        + destruct (Rle_dec (dot u (pt (fst e2))) k); [left|right]; lra.
        + destruct (Rle_dec (dot u (pt (snd e2))) k); [left|right]; lra.
      - destruct He1 as [<-|[]]. unfold reg in X. unfold one_side, pe; cbn [fst snd].
        destruct (hb u k (pt (fst e2))) eqn:E1, (hb u k (pt (snd e2))) eqn:E2; try discriminate.
        + apply hb_iff in E1, E2. now left. + apply hb_false in E1, E2. right. lra. }
    destruct (filter_closed u k _ OS) as [F1 F2].
    split.
    - intros q (e & He & Hq). apply F2 in He. destruct He as [He|[D1 D2]].
      + left. apply (Permutation_in _ PW) in He. apply in_map_iff in He. destruct He as (e1 & <- & He). apply in_flat_map in He. destruct He as (e2 & He2 & He1).
        exists (pe e2). split. { rewrite closed_edges_map, <- cyc_pairs_closed. apply in_map_iff. now exists e2. }
        unfold split_edge in He1. destruct (xorb _ _) eqn:X; [|destruct He1 as [<-|[]]; exact Hq].
        destruct (cut_ok e2 (HC e2 He2) X) as (_ & _ & _ & (t & Ht & E)). unfold pe in *; cbn [fst snd] in *.
        destruct He1 as [<-|[<-|[]]]; cbn [fst snd] in Hq; destruct Hq as (s & Hs & Eq).
        * exists (s * t). split. { split; [apply Rmult_le_pos; lra|]. assert (0 <= (1 - s) * t) by (apply Rmult_le_pos; lra). lra. }
          rewrite Eq, E. unfold lerp, px, py; cbn [fst snd]. f_equal; ring.
        * exists (t + s * (1 - t)). split. { assert (0 <= s * (1 - t)) by (apply Rmult_le_pos; lra). assert (0 <= (1 - s) * (1 - t)) by (apply Rmult_le_pos; lra). lra. }
          rewrite Eq, E. unfold lerp, px, py; cbn [fst snd]. f_equal; ring.
      + right. destruct Hq as (t & Ht & ->). rewrite dot_lerp, D1, D2. ring.
    - intros q Hq. rewrite F1 by easy. rewrite (par_perm _ _ _ PW), par_map, par_flat, closed_edges_map, par_map, <- cyc_pairs_closed.
      apply par_ext. intros e He. unfold split_edge. destruct (xorb _ _) eqn:X; [|cbn; now rewrite xorb_false_r].
      destruct (cut_ok e (HC e He) X) as (_ & _ & _ & S). cbn [par fst snd]. unfold pe; cbn [fst snd]. rewrite xorb_false_r. symmetry. now apply cut_edge.
  Qed.
End Clip.

Lemma clip_loop_ext (f g : vec R -> bool) l es acc : (forall v, f v = g v) -> clip_loop f l es acc = clip_loop g l es acc.
Proof.
  intros H. revert acc. induction es as [|[p0 p1] es IH]; intros acc; cbn [clip_loop]; [easy|]. rewrite <- !H.
  destruct (f p0), (f p1); rewrite ?IH; try easy; destruct (Line2D_intersection _ _); cbn [bind]; try easy; destruct (negb _); easy || apply IH.
Qed.
Lemma clip_loop_inside (f : vec R -> bool) l es acc : (forall e, In e es -> f (fst e) = true /\ f (snd e) = true) -> clip_loop f l es acc = Ok (acc ++ map snd es).
Proof.
  revert acc. induction es as [|[p0 p1] es IH]; intros acc H; cbn [clip_loop map]; [now rewrite app_nil_r|].
  destruct (H (p0, p1) ltac:(cbn; auto)) as [H0 H1]. cbn [fst snd] in *. rewrite H0, H1, IH by (intros; apply H; cbn; auto). now rewrite <- app_assoc.
Qed.

(** Whatever happens with the cuts, clipping with the boundary line of the
    region returns only points of the region, and never raises. *)
Theorem C73_only_inside_R : forall (region : vec R -> bool) (l : line R) (vs : list (vec R)),
  (forall v, v_valid v = true -> lpts l (pt v) -> region v = true) ->
  exists vs', get_line_clipped_polygon region vs l = Ok vs' /\ forall v, In v vs' -> region v = true.
Proof.
  intros region l vs HL. unfold get_line_clipped_polygon.
  assert (G : forall es acc, (forall v, In v acc -> region v = true) -> exists vs', clip_loop region l es acc = Ok vs' /\ forall v, In v vs' -> region v = true).
  { induction es as [|[p0 p1] es IH]; intros acc HA; cbn [clip_loop]; [now exists acc|].
    destruct (C22_intersection_R l (Line2D_of_points p0 p1)) as (v & -> & _ & _ & V2 & _). cbn [bind].
    assert (HV : v_valid v = true -> region v = true). { intros K. apply HL; [easy|]. apply (V2 K (pt v)). reflexivity. }
    destruct (region p0) eqn:R0, (region p1) eqn:R1.
    - apply IH. intros x Hx. apply in_app_iff in Hx. destruct Hx as [|[<-|[]]]; auto.
    - destruct (v_valid v) eqn:VV; cbn [negb]; [|now exists acc]. apply IH. intros x Hx. apply in_app_iff in Hx. destruct Hx as [|[<-|[]]]; auto.
    - destruct (v_valid v) eqn:VV; cbn [negb]; [|now exists acc]. apply IH. intros x Hx. apply in_app_iff in Hx. destruct Hx as [|[<-|[<-|[]]]]; auto.
    - now apply IH. }
  apply G. easy.
Qed.

(** If no cut is refused (see the hypothesis: for an axis-parallel boundary, an
    edge that leaves the half plane has an extent of at least 1e-6 across it),
    the result of clipping contains what the polygon contains inside the half
    plane and nothing outside it. *)
Theorem C73_halfplane_R : forall (u : point) (k : R) (region : vec R -> bool) (l : line R) (vs : list (vec R)),
  (forall v, region v = true <-> dot u (pt v) <= k) -> (forall q, lpts l q <-> dot u q = k) ->
  (forall a b, In (a, b) (closed_edges vs) -> region a <> region b ->
     Rabs (l_a l * (vx b - vx a) + l_b l * (vy b - vy a)) >= 1/1000000) ->
  exists vs', get_line_clipped_polygon region vs l = Ok vs' /\
    (forall v, In v vs' -> dot u (pt v) <= k) /\
    (forall p, dot u (pt p) < k -> ~ on_outline (map pt vs) (pt p) ->
       Polygon2D_contains vs' p true = Polygon2D_contains vs p true) /\
    (forall p, k < dot u (pt p) -> Polygon2D_contains vs' p true = Ok false).
Proof.
  intros u k region l vs HR HL HC.
  assert (ER : forall v, region v = reg u k v) by (intros v; apply eq_true_iff_eq; unfold reg; now rewrite HR, hb_iff).
  assert (CL : forall e, In e (cyc_pairs vs) -> clean u k l e).
  { intros [a b] He NR. rewrite cyc_pairs_closed in He. cbn [fst snd] in *. apply HC; [easy|]. now rewrite !ER. }
  destruct (clip_step u k l HL vs CL) as (vs' & E & H1 & H2 & H3 & H4).
  exists vs'. split. { rewrite <- E. unfold get_line_clipped_polygon. now apply clip_loop_ext. }
  split; [easy|]. split.
  - intros p Hp NO.
    assert (NO' : ~ on_outline (map pt vs') (pt p)) by (intros K; apply H3 in K; destruct K; [easy|lra]).
    rewrite !contains_parity by easy. f_equal. now apply H4.
  - intros p Hp.
    set (u' := ((- px u, - py u) : point)).
    assert (DU : forall q, dot u' q = - dot u q) by (intros q; unfold dot, u'; cbn; ring).
    assert (A1 : dot u' (pt p) < - k) by (rewrite DU; lra).
    assert (A2 : forall v, In v (map pt vs') -> - k <= dot u' v). { intros v Hv. apply in_map_iff in Hv. destruct Hv as (w & <- & Hw). apply H1 in Hw. rewrite DU. lra. }
    rewrite contains_parity; [|now apply (far_outline u' (- k))|easy]. f_equal. now apply (far_closed u' (- k)).
Qed.
(** A triangle cut by the line x = 2. *)
Example C73_nonvacuous : let vs := [mkVec 0 0 true; mkVec 4 0 true; mkVec 0 4 true] in let l := mkLine (-1) 0 2 in
  (forall v : vec R, x_less_equal 2 v = true <-> dot (1, 0) (pt v) <= 2) /\ (forall q, lpts l q <-> dot (1, 0) q = 2) /\
  (forall a b, In (a, b) (closed_edges vs) -> x_less_equal 2 a <> x_less_equal 2 b -> Rabs (l_a l * (vx b - vx a) + l_b l * (vy b - vy a)) >= 1/1000000).
Proof.
  cbn. split; [|split].
  - intros v. unfold x_less_equal; rnum. rewrite Rle_bool_iff. unfold dot, pt, px, py; cbn [fst snd]. lra.
  - intros q. unfold lpts, on_line, dot; cbn. unfold px, py; cbn [fst snd]. lra.
  - intros a b [E|[E|[E|[]]]]; injection E as <- <-; cbn [vx vy].
    + intros _. unfold Rabs; destruct (Rcase_abs _); lra.
    + intros _. unfold Rabs; destruct (Rcase_abs _); lra.
    + intros N. exfalso. apply N. reflexivity.
Qed.

Lemma x_le_R k (v : vec R) : x_less_equal k v = Rle_bool (vx v) k. Proof. reflexivity. Qed.
Lemma x_ge_R k (v : vec R) : x_more_equal k v = Rle_bool k (vx v). Proof. reflexivity. Qed.
Lemma y_le_R k (v : vec R) : y_less_equal k v = Rle_bool (vy v) k. Proof. reflexivity. Qed.
Lemma y_ge_R k (v : vec R) : y_more_equal k v = Rle_bool k (vy v). Proof. reflexivity. Qed.
(** An edge that leaves the region with an extent below 1e-6 stops the clipping:
    the rest of the polygon is dropped. *)
Theorem C73_stop_refuted : exists (vs : list (vec R)) (p : vec R) (vs' : list (vec R)),
  get_line_clipped_polygon (x_less_equal 1) vs (mkLine (-1) 0 1) = Ok vs' /\
  ~ on_outline (map pt vs) (pt p) /\ vx p < 1 /\
  Polygon2D_contains vs p true = Ok true /\ Polygon2D_contains vs' p true = Ok false.
Proof.
  set (d := 1 + 5/10000000).
  exists [mkVec 0 0 true; mkVec 1 (-1) true; mkVec d 0 true; mkVec 0 1 true], (mkVec (1/2) 0.1 true), [mkVec 1 (-1) true].
  assert (NO : ~ on_outline (map pt [mkVec 0 0 true; mkVec 1 (-1) true; mkVec d 0 true; mkVec 0 1 true]) (1/2, 0.1)).
  { intros (e & He & (t & Ht & E)). unfold pt in He; cbn in He. unfold lerp in E. injection E as E1 E2. unfold px, py, d in *.
    destruct He as [<-|[<-|[<-|[<-|[]]]]]; cbn [fst snd] in *; lra. }
  split; [|split; [exact NO|split; [cbn; lra|split]]].
  - unfold get_line_clipped_polygon. cbn [cyc_pairs path_pairs clip_loop]. rewrite !x_le_R. cbn [vx].
    rewrite (Rle_bool_true 0 1), (Rle_bool_true 1 1), (Rle_bool_false d 1) by (unfold d; lra). cbn [app].
    destruct (C22_intersection_R (mkLine (-1) 0 1) (Line2D_of_points (mkVec 1 (-1) true) (mkVec d 0 true))) as (v & -> & V & _). cbn [bind].
    rewrite of_points_R in V. cbn [l_a l_b vx vy] in V.
    destruct (v_valid v); [|reflexivity]. exfalso. pose proof (proj1 V eq_refl) as K. unfold d in K. unfold Rabs in K; destruct (Rcase_abs _) in K; lra.
  - rewrite contains_parity by easy. f_equal. unfold pt; cbn [map closed_edges combine app par vx vy]. unfold crossb, upb, downb. cbn [fst snd]. unfold side, cross, psub, px, py. cbn [fst snd].
    repeat match goal with |- context [Rle_bool ?a ?b] => destruct (Rle_bool_spec a b); [try (exfalso; unfold d in *; lra)|try (exfalso; unfold d in *; lra)] end;
    repeat match goal with |- context [Rlt_bool ?a ?b] => destruct (Rlt_bool_spec a b); [try (exfalso; unfold d in *; lra)|try (exfalso; unfold d in *; lra)] end; reflexivity.
  - rewrite contains_parity.
    + f_equal. unfold pt; cbn [map closed_edges combine app par vx vy]. unfold crossb, upb, downb. cbn [fst snd]. unfold px, py. cbn [fst snd].
      rewrite (Rlt_bool_false 0.1 (-1)) by lra. now rewrite !andb_false_r.
    + intros (e & He & (t & Ht & E)). unfold pt in He; cbn in He. unfold lerp in E. injection E as E1 E2. unfold px, py in *. destruct He as [<-|[]]; cbn [fst snd] in *. lra.
    + easy.
Qed.

(** ** The clip with a rectangle *)
Lemma rad_0 : rad 0 = 0. Proof. unfold rad. field. Qed.
Lemma rad_90 : rad 90 = PI / 2. Proof. unfold rad. field. Qed.
Lemma vline_R x : Line2D_of_angle (V x 0) (AN (num 90)) = Ok (mkLine (-1) 0 x).
Proof.
  rewrite line_of_angle_R. unfold arg_deg. rnum. rewrite rad_90, sin_PI2, cos_PI2. cbn [vx vy V]. do 2 f_equal; ring.
Qed.
Lemma hline_R y : Line2D_of_angle (V 0 y) (AN (num 0)) = Ok (mkLine 0 1 (- y)).
Proof.
  rewrite line_of_angle_R. unfold arg_deg. rnum. rewrite rad_0, sin_0, cos_0. cbn [vx vy V]. do 2 f_equal; ring.
Qed.
Lemma outline_bound (P : point -> Prop) l : (forall a b t, 0 <= t <= 1 -> P a -> P b -> P (lerp a b t)) -> (forall v, In v l -> P v) -> forall q, on_outline l q -> P q.
Proof. intros HP HV q ([a b] & He & (t & Ht & ->)). apply in_closed in He. cbn [fst snd] in *. apply HP; [easy| |]; now apply HV. Qed.
Lemma lerp_le f c a b t : (f = px \/ f = py) -> 0 <= t <= 1 -> f a <= c -> f b <= c -> f (lerp a b t) <= c.
Proof.
  intros HF Ht Ha Hb. assert (E : f (lerp a b t) = (1 - t) * f a + t * f b) by (destruct HF as [->| ->]; unfold lerp, px, py; cbn [fst snd]; ring).
  rewrite E. assert (0 <= t * (c - f b)) by (apply Rmult_le_pos; lra). assert (0 <= (1 - t) * (c - f a)) by (apply Rmult_le_pos; lra). lra.
Qed.
Lemma lerp_ge f c a b t : (f = px \/ f = py) -> 0 <= t <= 1 -> c <= f a -> c <= f b -> c <= f (lerp a b t).
Proof.
  intros HF Ht Ha Hb. assert (E : f (lerp a b t) = (1 - t) * f a + t * f b) by (destruct HF as [->| ->]; unfold lerp, px, py; cbn [fst snd]; ring).
  rewrite E. assert (0 <= t * (f b - c)) by (apply Rmult_le_pos; lra). assert (0 <= (1 - t) * (f a - c)) by (apply Rmult_le_pos; lra). lra.
Qed.
(** one stage for a vertical or horizontal boundary *)
Lemma clip_axis region l u k vs : (forall v, region v = hb u k (pt v)) -> (forall q, lpts l q <-> dot u q = k) ->
  (forall v w, dot u (pt v) <= k -> In (pt w) (map pt vs) -> k < dot u (pt w) ->
     Rabs (l_a l * (vx w - vx v) + l_b l * (vy w - vy v)) >= 1/1000000) ->
  exists vs', get_line_clipped_polygon region vs l = Ok vs' /\
      (forall v, In v (map pt vs') -> dot u v <= k) /\
      (forall v, In v (map pt vs') -> In v (map pt vs) \/ (on_outline (map pt vs) v /\ dot u v = k)) /\
      (forall q, on_outline (map pt vs') q -> on_outline (map pt vs) q \/ dot u q = k) /\
      (forall q, dot u q < k -> par (crossb q) (closed_edges (map pt vs')) = par (crossb q) (closed_edges (map pt vs))).
Proof.
  intros HR HL HW.
  assert (CL : forall e, In e (cyc_pairs vs) -> clean u k l e).
  { intros [a b] He NR. rewrite cyc_pairs_closed in He. apply in_closed in He. cbn [fst snd] in *. destruct He as [Ia Ib]. apply (in_map pt) in Ia, Ib. unfold reg in NR.
    destruct (hb u k (pt a)) eqn:E1, (hb u k (pt b)) eqn:E2; try easy.
    - apply hb_iff in E1. apply hb_false in E2. now apply HW.
    - apply hb_iff in E2. apply hb_false in E1. replace (_ + _) with (- (l_a l * (vx a - vx b) + l_b l * (vy a - vy b))) by ring. rewrite Rabs_Ropp. now apply HW. }
  destruct (clip_step u k l HL vs CL) as (vs' & E & H1 & H2 & H3 & H4). exists vs'.
  split. { rewrite <- E. unfold get_line_clipped_polygon. apply clip_loop_ext. intros v. apply HR. }
  split; [|easy]. intros v Hv. apply in_map_iff in Hv. destruct Hv as (w & <- & Hw). now apply H1.
Qed.
(** Clipping with a rectangle.  Vertices beyond the bottom side are excluded
    (see the refutation below); the clearance hypotheses say that nothing
    comes closer than 1e-6 to a side from outside where an edge is cut. *)
Theorem C73_rect_R : forall (r : rect R) (vs : list (vec R)),
  Rect2D_left r < Rect2D_right r -> Rect2D_top r <= Rect2D_bottom r ->
  (forall v, In v vs -> vy v <= Rect2D_bottom r) ->
  (forall v, In v vs -> ~ Rect2D_right r < vx v < Rect2D_right r + 1/1000000 /\
                        ~ Rect2D_left r - 1/1000000 < vx v < Rect2D_left r /\
                        ~ Rect2D_top r - 1/1000000 < vy v < Rect2D_top r) ->
  (forall q, on_outline (map pt vs) q -> px q = Rect2D_left r \/ px q = Rect2D_right r ->
     ~ Rect2D_top r - 1/1000000 < py q < Rect2D_top r) ->
  vs <> [] ->
  exists vs', Polygon2D_get_rectangle_clipped_polygon vs r = Ok vs' /\
    (forall v, In v vs' -> Rect2D_left r <= vx v <= Rect2D_right r /\ Rect2D_top r <= vy v <= Rect2D_bottom r) /\
    (forall p, Rect2D_left r < vx p < Rect2D_right r -> Rect2D_top r < vy p < Rect2D_bottom r -> ~ on_outline (map pt vs) (pt p) ->
       Polygon2D_contains vs' p true = Polygon2D_contains vs p true) /\
    (forall p, ~ (Rect2D_left r <= vx p <= Rect2D_right r /\ Rect2D_top r <= vy p <= Rect2D_bottom r) ->
       Polygon2D_contains vs' p true = Ok false).
Proof.
  intros r vs HLR HTB HY HV HO HNE.
  unfold Polygon2D_get_rectangle_clipped_polygon.
  set (L := Rect2D_left r) in *. set (Rt := Rect2D_right r) in *. set (Tp := Rect2D_top r) in *. set (Bt := Rect2D_bottom r) in *.
  clearbody L Rt Tp Bt.
  set (rest := bind _ _). assert (EM : match vs with [] => Ok [V (num 0) (num 0)] | _ => rest end = rest) by (destruct vs; easy). rewrite EM. unfold rest; clear EM rest.
  change (V Rt (num 0)) with (V Rt 0). change (V L (num 0)) with (V L 0). change (V (num 0) Tp) with (V 0 Tp).
  rewrite !vline_R, !hline_R. cbn [bind].
  assert (MV : forall (v : point) l, In v (map pt l) -> exists w, In w l /\ v = pt w) by (intros v l Hv; apply in_map_iff in Hv; destruct Hv as (w & <- & Hw); now exists w).
  (* right side *)
  destruct (clip_axis (x_less_equal Rt) (mkLine (-1) 0 Rt) (1, 0) Rt vs) as (c1 & E1 & A1 & B1 & C1 & D1).
  { intros v. rewrite x_le_R. unfold hb, dot, pt, px, py; cbn [fst snd]. f_equal. ring. }
  { intros q. unfold lpts, on_line, dot; cbn. unfold px, py; cbn [fst snd]. lra. }
  { intros v w Hv Hw HK. destruct (MV _ _ Hw) as (w' & Hw' & Ew). apply HV in Hw'. assert (EX : vx w' = vx w) by (unfold pt in Ew; congruence). unfold dot, pt, px, py in Hv, HK; cbn [fst snd] in Hv, HK. cbn [l_a l_b]. unfold Rabs; destruct (Rcase_abs _); lra. }
  rewrite E1; cbn [bind].
  assert (Y1 : forall v, In v (map pt c1) -> py v <= Bt).
  { assert (Y0 : forall v, In v (map pt vs) -> py v <= Bt) by (intros v Hv; destruct (MV _ _ Hv) as (w & Hw & ->); now apply HY).
    intros v Hv. apply B1 in Hv. destruct Hv as [Hv|[Hv _]]; [auto|]. revert v Hv. apply outline_bound; [|easy]. intros. apply lerp_le; auto. }
  (* bottom side: nothing to do but a rotation *)
  assert (E2 : exists c2, get_line_clipped_polygon (y_less_equal Bt) c1 (mkLine 0 1 (- Tp)) = Ok c2 /\ (forall v, In v (map pt c2) <-> In v (map pt c1)) /\ Permutation (closed_edges (map pt c2)) (closed_edges (map pt c1))).
  { unfold get_line_clipped_polygon. rewrite clip_loop_inside.
    - eexists. split; [reflexivity|]. cbn [app]. rewrite cyc_pairs_closed. split.
      + intros v. split; apply Permutation_in; apply Permutation_map; [apply snd_closed|apply Permutation_sym, snd_closed].
      + destruct c1 as [|a m]; [constructor|]. cbn [closed_edges]. rewrite <- path_pairs_combine.
        assert (EP : forall b z, map snd (path_pairs b m z) = m ++ [z]) by (clear; induction m as [|c m IH]; intros b z; cbn; [easy|]; now rewrite IH).
        rewrite EP, map_app. cbn [map]. apply (closed_rot (map pt m) [pt a]).
    - intros e He. rewrite cyc_pairs_closed in He. apply in_closed in He. destruct He as [I1 I2]. apply (in_map pt) in I1, I2. apply Y1 in I1, I2. rewrite !y_le_R, !Rle_bool_iff. easy. }
  destruct E2 as (c2 & E2 & B2 & P2). rewrite E2; cbn [bind].
  assert (C2 : forall q, on_outline (map pt c2) q <-> on_outline (map pt c1) q).
  { intros q. unfold on_outline. split; intros (e & He & Hs); exists e; (split; [|easy]); [apply (Permutation_in _ P2)|apply (Permutation_in _ (Permutation_sym P2))]; easy. }
  (* left side *)
  destruct (clip_axis (x_more_equal L) (mkLine (-1) 0 L) (-1, 0) (- L) c2) as (c3 & E3 & A3 & B3 & C3 & D3).
  { intros v. rewrite x_ge_R. apply eq_true_iff_eq. rewrite hb_iff, Rle_bool_iff. unfold dot, pt, px, py; cbn [fst snd]. lra. }
  { intros q. unfold lpts, on_line, dot; cbn. unfold px, py; cbn [fst snd]. lra. }
  { intros v w Hv Hw HK. unfold dot, pt, px, py in Hv, HK; cbn [fst snd] in Hv, HK. apply B2 in Hw. apply B1 in Hw. destruct Hw as [Hw|[_ Hw]].
    - destruct (MV _ _ Hw) as (w' & Hw' & Ew). apply HV in Hw'. assert (EX : vx w' = vx w) by (unfold pt in Ew; congruence). cbn [l_a l_b]. unfold Rabs; destruct (Rcase_abs _); lra.
    - unfold dot, pt, px, py in Hw; cbn [fst snd] in Hw. lra. }
  rewrite E3; cbn [bind].
  assert (V3 : forall v, In v (map pt c3) -> In v (map pt vs) \/ (on_outline (map pt vs) v /\ (px v = L \/ px v = Rt))).
  { intros v Hv. apply B3 in Hv. destruct Hv as [Hv|[Hv Hd]].
    - apply B2, B1 in Hv. destruct Hv as [Hv|[Hv Hd]]; [now left|]. right. split; [easy|]. right. unfold dot, px, py in *; cbn [fst snd] in *. lra.
    - apply C2, C1 in Hv. unfold dot, px, py in *; cbn [fst snd] in *. destruct Hv as [Hv|Hv]; [|exfalso; lra]. right. split; [easy|]. left. lra. }
  (* top side *)
  destruct (clip_axis (y_more_equal Tp) (mkLine 0 1 (- Tp)) (0, -1) (- Tp) c3) as (c4 & E4 & A4 & B4 & C4 & D4).
  { intros v. rewrite y_ge_R. apply eq_true_iff_eq. rewrite hb_iff, Rle_bool_iff. unfold dot, pt, px, py; cbn [fst snd]. lra. }
  { intros q. unfold lpts, on_line, dot; cbn. unfold px, py; cbn [fst snd]. lra. }
  { intros v w Hv Hw HK. unfold dot, pt, px, py in Hv, HK; cbn [fst snd] in Hv, HK.
    assert (HW : ~ Tp - 1/1000000 < vy w < Tp).
    { apply V3 in Hw. destruct Hw as [Hw|[Hw Hx]]; [|now apply (HO (pt w))]. destruct (MV _ _ Hw) as (w' & Hw' & Ew). apply HV in Hw'. assert (EX : vy w' = vy w) by (unfold pt in Ew; congruence). rewrite <- EX. tauto. }
    cbn [l_a l_b]. unfold Rabs; destruct (Rcase_abs _); lra. }
  rewrite E4. exists c4. split; [easy|].
  assert (IN : forall v, In v (map pt c4) -> L <= px v <= Rt /\ Tp <= py v <= Bt).
  { assert (I1 : forall v, In v (map pt c1) -> px v <= Rt /\ py v <= Bt). { intros v Hv. split; [|auto]. apply A1 in Hv. unfold dot in Hv; cbn in Hv. lra. }
    assert (I2 : forall v, In v (map pt c2) -> px v <= Rt /\ py v <= Bt) by (intros v Hv; apply I1; now apply B2).
    assert (I3 : forall v, In v (map pt c3) -> L <= px v <= Rt /\ py v <= Bt).
    { intros v Hv. assert (K : px v <= Rt /\ py v <= Bt).
      { apply B3 in Hv. destruct Hv as [Hv|[Hv _]]; [auto|]. revert v Hv. apply outline_bound; [|easy]. intros a b t Ht [] []. split; apply lerp_le; auto. }
      apply A3 in Hv. unfold dot in Hv; cbn in Hv. unfold px in *. lra. }
    intros v Hv. assert (K : L <= px v <= Rt /\ py v <= Bt).
    { apply B4 in Hv. destruct Hv as [Hv|[Hv _]]; [auto|]. revert v Hv. apply outline_bound; [|easy]. intros a b t Ht [[] ] [[] ]. repeat split; (apply lerp_le || apply lerp_ge); auto. }
    apply A4 in Hv. unfold dot in Hv; cbn in Hv. unfold px, py in *. lra. }
  split. { intros v Hv. apply (in_map pt) in Hv. apply IN in Hv. exact Hv. }
  split.
  - intros p HX HYp NO.
    assert (NO4 : ~ on_outline (map pt c4) (pt p)).
    { intros K. apply C4 in K. destruct K as [K|K]; [|unfold dot, pt, px, py in K; cbn [fst snd] in K; lra].
      apply C3 in K. destruct K as [K|K]; [|unfold dot, pt, px, py in K; cbn [fst snd] in K; lra].
      apply C2, C1 in K. destruct K as [K|K]; [easy|unfold dot, pt, px, py in K; cbn [fst snd] in K; lra]. }
    rewrite !contains_parity by easy. f_equal.
    rewrite D4, D3, (par_perm _ _ _ P2), D1; [easy| | |]; unfold dot, pt, px, py; cbn [fst snd]; lra.
  - intros p HN.
    assert (G : exists u k, dot u (pt p) < k /\ forall v, In v (map pt c4) -> k <= dot u v).
    { destruct (Rlt_dec (vx p) L). { exists (1, 0), L. split; [unfold dot, pt, px, py; cbn [fst snd]; lra|]. intros v Hv. apply IN in Hv. unfold dot, px, py in *; cbn [fst snd]. lra. }
      destruct (Rlt_dec Rt (vx p)). { exists (-1, 0), (- Rt). split; [unfold dot, pt, px, py; cbn [fst snd]; lra|]. intros v Hv. apply IN in Hv. unfold dot, px, py in *; cbn [fst snd]. lra. }
      destruct (Rlt_dec (vy p) Tp). { exists (0, 1), Tp. split; [unfold dot, pt, px, py; cbn [fst snd]; lra|]. intros v Hv. apply IN in Hv. unfold dot, px, py in *; cbn [fst snd]. lra. }
      destruct (Rlt_dec Bt (vy p)). { exists (0, -1), (- Bt). split; [unfold dot, pt, px, py; cbn [fst snd]; lra|]. intros v Hv. apply IN in Hv. unfold dot, px, py in *; cbn [fst snd]. lra. }
      exfalso. apply HN. lra. }
    destruct G as (u & k & G1 & G2). rewrite contains_parity; [|now apply (far_outline u k)|easy]. f_equal. now apply (far_closed u k).
Qed.
Example C73_rect_nonvacuous : let r := mkRect (mkVec 0 0 true) (mkSize 4 4) true in
  let vs := [mkVec 1 1 true; mkVec 6 2 true; mkVec 1 3 true] in
  Rect2D_left r < Rect2D_right r /\ Rect2D_top r <= Rect2D_bottom r /\
  (forall v, In v vs -> vy v <= Rect2D_bottom r) /\
  (forall v, In v vs -> ~ Rect2D_right r < vx v < Rect2D_right r + 1/1000000 /\
                        ~ Rect2D_left r - 1/1000000 < vx v < Rect2D_left r /\
                        ~ Rect2D_top r - 1/1000000 < vy v < Rect2D_top r) /\
  (forall q, on_outline (map pt vs) q -> px q = Rect2D_left r \/ px q = Rect2D_right r ->
     ~ Rect2D_top r - 1/1000000 < py q < Rect2D_top r).
Proof.
  cbv zeta. set (r := mkRect _ _ _).
  assert (EL : Rect2D_left r = 0) by reflexivity. assert (ER : Rect2D_right r = 4) by (change (0 + 4 = 4); lra).
  assert (ET : Rect2D_top r = 0) by reflexivity. assert (EB : Rect2D_bottom r = 4) by (change (0 + 4 = 4); lra).
  rewrite EL, ER, ET, EB.
  split; [lra|]. split; [lra|]. split; [|split].
  - intros v [<-|[<-|[<-|[]]]]; cbn; lra.
  - intros v [<-|[<-|[<-|[]]]]; cbn; lra.
  - intros q Hq _. assert (1 <= py q); [|lra]. revert q Hq. apply outline_bound; [intros; apply lerp_ge; auto|].
    intros v Hv. unfold pt in Hv; cbn in Hv. destruct Hv as [<-|[<-|[<-|[]]]]; cbn; lra.
Qed.
Lemma inter_eq l m x y : Rabs (l_a l * l_b m - l_b l * l_a m) >= 1/1000000 -> lpts l (x, y) -> lpts m (x, y) -> Line2D_intersection l m = Ok (mkVec x y true).
Proof.
  intros D H1 H2. destruct (C22_intersection_R l m) as (v & -> & V1 & _ & V2 & _). apply V1 in D. pose proof (proj1 (V2 D (x, y)) (conj H1 H2)) as E.
  destruct v as [a b c]. unfold pt in E; cbn in *. subst c. injection E as -> ->. reflexivity.
Qed.
(** A vertex below the bottom side: the cut is made on the line of the top
    side.  The triangle below loses the part between y = 1 and y = 4 and gains
    corners on y = 0 that it does not contain. *)
Theorem C73_bottom_refuted : exists (r : rect R) (vs : list (vec R)) (p w : vec R) (vs' : list (vec R)),
  Polygon2D_get_rectangle_clipped_polygon vs r = Ok vs' /\
  (Rect2D_left r < vx p < Rect2D_right r /\ Rect2D_top r < vy p < Rect2D_bottom r) /\
  Polygon2D_contains vs p true = Ok true /\ Polygon2D_contains vs' p true = Ok false /\
  In w vs' /\ Polygon2D_contains vs w true = Ok false.
Proof.
  exists (mkRect (mkVec 0 0 true) (mkSize 4 4) true), [mkVec 1 1 true; mkVec 3 1 true; mkVec 2 10 true], (mkVec 2 3 true), (mkVec (28/9) 0 true),
    [mkVec 1 1 true; mkVec 3 1 true; mkVec (28/9) 0 true; mkVec (8/9) 0 true].
  set (r := mkRect _ _ _).
  assert (EL : Rect2D_left r = 0) by reflexivity. assert (ER : Rect2D_right r = 4) by (change (0 + 4 = 4); lra).
  assert (ET : Rect2D_top r = 0) by reflexivity. assert (EB : Rect2D_bottom r = 4) by (change (0 + 4 = 4); lra).
  split; [|split; [rewrite EL, ER, ET, EB; cbn; lra|]].
  - unfold Polygon2D_get_rectangle_clipped_polygon. rewrite EL, ER, ET, EB. clear.
    change (V 4 (num 0)) with (V 4 0). change (V 0 (num 0)) with (V 0 0). change (V (num 0) 0) with (V 0 0). rewrite !vline_R, !hline_R. cbn [bind].
    unfold get_line_clipped_polygon.
    rewrite (clip_loop_inside (x_less_equal 4)). 2:{ intros e He. cbn in He. rewrite !x_le_R, !Rle_bool_iff. destruct He as [<-|[<-|[<-|[]]]]; cbn; lra. }
    cbn [bind cyc_pairs path_pairs map snd app clip_loop]. rewrite !y_le_R; cbn [vy].
    rewrite (Rle_bool_true 1 4), (Rle_bool_false 10 4) by lra.
    rewrite (inter_eq _ _ (28/9) 0); cycle 1.
    { rewrite of_points_R; cbn. unfold Rabs; destruct (Rcase_abs _); lra. } { unfold lpts, on_line; cbn; lra. } { rewrite of_points_R; unfold lpts, on_line; cbn; lra. }
    cbn [bind v_valid negb app].
    rewrite (inter_eq _ _ (8/9) 0); cycle 1.
    { rewrite of_points_R; cbn. unfold Rabs; destruct (Rcase_abs _); lra. } { unfold lpts, on_line; cbn; lra. } { rewrite of_points_R; unfold lpts, on_line; cbn; lra. }
    cbn [bind v_valid negb app cyc_pairs path_pairs].
    rewrite (clip_loop_inside (x_more_equal 0)). 2:{ intros e He. cbn in He. rewrite !x_ge_R, !Rle_bool_iff. destruct He as [<-|[<-|[<-|[<-|[]]]]]; cbn; lra. }
    cbn [bind cyc_pairs path_pairs map snd app].
    rewrite (clip_loop_inside (y_more_equal 0)). 2:{ intros e He. cbn in He. rewrite !y_ge_R, !Rle_bool_iff. destruct He as [<-|[<-|[<-|[<-|[]]]]]; cbn; lra. }
    reflexivity.
  - clear. split; [|split; [|split]].
    + rewrite contains_parity; [|intros (e & He & (t & Ht & E)); unfold pt in He; cbn in He; unfold lerp in E; injection E as E1 E2; unfold px, py in *; destruct He as [<-|[<-|[<-|[]]]]; cbn [fst snd] in *; lra|easy].
      f_equal. unfold pt; cbn [map closed_edges combine app par vx vy]. unfold crossb, upb, downb. cbn [fst snd]. unfold side, cross, psub, px, py. cbn [fst snd].
      repeat match goal with |- context [Rle_bool ?a ?b] => destruct (Rle_bool_spec a b); [try (exfalso; lra)|try (exfalso; lra)] end;
      repeat match goal with |- context [Rlt_bool ?a ?b] => destruct (Rlt_bool_spec a b); [try (exfalso; lra)|try (exfalso; lra)] end; reflexivity.
    + assert (A : forall v, In v (map pt [mkVec 1 1 true; mkVec 3 1 true; mkVec (28/9) 0 true; mkVec (8/9) 0 true]) -> -1 <= dot (0, -1) v).
      { intros v Hv. unfold pt in Hv; cbn in Hv. unfold dot, px, py. destruct Hv as [<-|[<-|[<-|[<-|[]]]]]; cbn [fst snd]; lra. }
      assert (B : dot (0, -1) (pt (mkVec 2 3 true)) < -1) by (unfold dot, pt, px, py; cbn [fst snd vx vy]; lra).
      rewrite contains_parity; [|now apply (far_outline (0, -1) (-1))|easy]. f_equal. now apply (far_closed (0, -1) (-1)).
    + cbn; auto.
    + assert (A : forall v, In v (map pt [mkVec 1 1 true; mkVec 3 1 true; mkVec 2 10 true]) -> 1 <= dot (0, 1) v).
      { intros v Hv. unfold pt in Hv; cbn in Hv. unfold dot, px, py. destruct Hv as [<-|[<-|[<-|[]]]]; cbn [fst snd]; lra. }
      assert (B : dot (0, 1) (pt (mkVec (28/9) 0 true)) < 1) by (unfold dot, pt, px, py; cbn [fst snd vx vy]; lra).
      rewrite contains_parity; [|now apply (far_outline (0, 1) 1)|easy]. f_equal. now apply (far_closed (0, 1) 1).
Qed.
(** A polygon without vertices is clipped to one vertex at the origin, wherever
    the rectangle is. *)
Theorem C73_empty : forall (T : Type) (N : Num T) (r : rect T),
  Polygon2D_get_rectangle_clipped_polygon [] r = Ok [V (num 0) (num 0)].
Proof. reflexivity. Qed.
