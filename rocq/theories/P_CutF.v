(** * P_CutF: where a line cuts a rectangle, in doubles (C171) *)
From Coq Require Import ZArith List Bool String Reals Lra Lia Psatz.
From Flocq Require Import Core BinarySingleNaN.
From Verif Require Import Base Types NumR NumF R_Tac Spec Spec2 Abs M_Angle M_Vector M_Line M_Segment M_Circle M_Rect
  L_Angle P_Vector P_Line L_Float P_Float P_AngleF P_Robust P_Hull2 P_VecF P_TrigF P_LineF P_MatF P_CircF P_CircF2 P_RayF P_SegF2 P_Rect.
Import ListNotations.
Local Open Scope R_scope.

(** ** Specification *)
(** How the line through p1 and p2 meets the side from a to b, along which the
    coordinate [f] runs from [lo] to [hi]: either it cuts the line of the side in a
    point [q] of the side at least [m] away from the ends, or it is (almost) parallel
    to the side or cuts its line clearly outside the side.  [m] bounds the error of
    the computed cut. *)
Definition cuts (k : Z) (m : R) (f : point -> R) (lo hi : R) (a b p1 p2 : point) (o : option point) : Prop :=
  let D := Rabs (cross (psub b a) (psub p2 p1)) in
  match o with
  | Some q => on_line2 a b q /\ on_line2 p1 p2 q /\ lo + m <= f q <= hi - m /\ bpow radix2 (2 * k - 45) <= D /\ 2 / 999999 <= D /\ bpow radix2 (3 * k - 45) / D <= m
  | None => D + bpow radix2 (2 * k - 49) < 1 / 1000001 \/
      exists (n : Z) (q : point), (k <= n <= 500)%Z /\ on_line2 a b q /\ on_line2 p1 p2 q /\ Rabs (px q) <= bpow radix2 n /\ Rabs (py q) <= bpow radix2 n /\
        bpow radix2 (2 * k - 45) <= D /\ 2 / 999999 <= D /\ (f q < lo - bpow radix2 (n + 2 * k - 45) / D \/ hi + bpow radix2 (n + 2 * k - 45) / D < f q)
  end.
Definition hits (os : list (option point)) : list point := flat_map (fun o => match o with Some q => [q] | None => [] end) os.

(** A reported point: valid, and within [m] of the exact cut in each coordinate. *)
Definition reports (m : R) (v : vec F) (q : point) : Prop := v_valid v = true /\ coords_near m v q.
(** The result is one point for each cut, except that two points closer than 1e-6 may be reported as one. *)
Definition reported (m : R) (res : res (list (vec F))) (qs : list point) : Prop :=
  exists vs, Forall2 (reports m) vs qs /\ (res = Ok vs \/ exists v w, vs = [v; w] /\ res = Ok [v] /\ weakly_near v w).

(** ** One side *)
Definition hit_at (k : Z) (m : R) (v : vec F) (q : point) : Prop := reports m v q /\ within (k + 1) v.
Lemma side_step L k m (f : point -> R) (g : vec F -> F) (lo hi : F) (a b p1 p2 : vec F) o : (-200 <= k <= 200)%Z -> within k a -> within k b -> within k p1 -> within k p2 ->
  is_finite lo = true -> is_finite hi = true -> ((f = px /\ g = @vx F /\ py (fpt a) = B2R (vy a) /\ vy a = vy b) \/ (f = py /\ g = @vy F /\ vx a = vx b)) ->
  Rabs (B2R lo) <= bpow radix2 k -> Rabs (B2R hi) <= bpow radix2 k ->
  cuts k m f (B2R lo) (B2R hi) (fpt a) (fpt b) (fpt p1) (fpt p2) o ->
  exists v, @Line2D_intersection F (NumF L) (@Line2D_of_points F (NumF L) a b) (@Line2D_of_points F (NumF L) p1 p2) = Ok v /\
    match o with
    | Some q => (v_valid v && Bleb lo (g v) && Bleb (g v) hi = true)%bool /\ hit_at k m v q
    | None => (v_valid v && Bleb lo (g v) && Bleb (g v) hi = false)%bool
    end.
Proof.
  intros Hk WA WB W1 W2 Flo Fhi FG BL BH C. unfold cuts in C. set (D := Rabs _) in C.
  assert (FV : forall v, f (fpt v) = B2R (g v)) by (intros v; destruct FG as [(-> & -> & _)|(-> & -> & _)]; reflexivity).
  destruct o as [q|].
  - destruct C as (O1 & O2 & [F1 F2] & D1 & D2 & E).
    assert (PD : 0 < D) by lra. assert (PM : 0 < m) by (apply Rlt_le_trans with (2 := E); apply Rdiv_lt_0_compat; [apply bpow_gt_0|exact PD]).
    assert (MK : bpow radix2 (3 * k - 45) / D <= bpow radix2 k).
    { apply Rmult_le_reg_r with D; [exact PD|]. unfold Rdiv. rewrite Rmult_assoc, Rinv_l, Rmult_1_r by lra. replace (3 * k - 45)%Z with (k + (2 * k - 45))%Z by lia. rewrite bpow_plus. apply Rmult_le_compat_l; [apply bpow_ge_0|exact D1]. }
    assert (QB : Rabs (px q) <= bpow radix2 k /\ Rabs (py q) <= bpow radix2 k).
    { destruct O1 as (t & ->). destruct WA as (_ & _ & A3 & A4). unfold lerp, px, py, fpt in *. apply Rabs_le_inv in BL, BH.
      destruct FG as [(-> & -> & _ & EY)|(-> & -> & EX)]; cbn [fst snd] in *; [rewrite EY in *|rewrite EX in *]; cbn [fst snd px py] in *; split;
        first [ apply Rabs_le; lra | match goal with |- Rabs ?x <= _ => match type of A3 with Rabs ?z <= _ => replace x with z by ring; assumption end end | match goal with |- Rabs ?x <= _ => match type of A4 with Rabs ?z <= _ => replace x with z by ring; assumption end end ]. }
    destruct QB as [QX QY].
    destruct (C144_intersection_F L k k a b p1 p2 q Hk ltac:(lia) WA WB W1 W2 D1 D2 O1 O2 QX QY) as (l1 & l2 & v & L1 & L2 & V & V0 & V1 & V2 & V3 & V4).
    injection L1 as <-. injection L2 as <-. fold D in V3, V4. replace (k + 2 * k - 45)%Z with (3 * k - 45)%Z in V3, V4 by lia.
    exists v. split; [exact V|]. rewrite V0. assert (GV : is_finite (g v) = true) by (destruct FG as [(_ & -> & _)|(_ & -> & _)]; assumption).
    assert (GE : Rabs (B2R (g v) - f q) <= m) by (rewrite <- FV; destruct FG as [(-> & _)|(-> & _)]; lra).
    rewrite !leb_F by assumption. apply Rabs_le_inv in GE. rewrite !Rle_bool_true by lra. split; [reflexivity|].
    split; [split; [exact V0|split; [exact V1|split; [exact V2|split; eapply Rle_trans; try exact E; assumption]]]|].
    split; [exact V1|]. split; [exact V2|]. rewrite Z.add_comm, bp2. unfold fpt, px, py in V3, V4. cbn [fst snd] in V3, V4. fold (px q) in V3. fold (py q) in V4. apply Rabs_le_inv in V3, V4, QX, QY. split; apply Rabs_le; lra.
  - destruct C as [C|(n & q & Hn & O1 & O2 & QX & QY & D1 & D2 & C)].
    + destruct (C144_parallel_F L k a b p1 p2 Hk WA WB W1 W2 C) as (l1 & l2 & L1 & L2 & V). injection L1 as <-. injection L2 as <-. exists (@Vector2D_invalid F (NumF L)). split; [exact V|]. reflexivity.
    + destruct (C144_intersection_F L k n a b p1 p2 q Hk Hn WA WB W1 W2 D1 D2 O1 O2 QX QY) as (l1 & l2 & v & L1 & L2 & V & V0 & V1 & V2 & V3 & V4).
      injection L1 as <-. injection L2 as <-. fold D in V3, V4. set (e := bpow radix2 (n + 2 * k - 45) / D) in *.
      exists v. split; [exact V|]. rewrite V0. assert (GV : is_finite (g v) = true) by (destruct FG as [(_ & -> & _)|(_ & -> & _)]; assumption).
      assert (GE : Rabs (B2R (g v) - f q) <= e) by (rewrite <- FV; destruct FG as [(-> & _)|(-> & _)]; assumption).
      rewrite !leb_F by assumption. apply Rabs_le_inv in GE. destruct C as [C|C]; [rewrite (Rle_bool_false (B2R lo)) by lra|rewrite (Rle_bool_false _ (B2R hi)) by lra; rewrite andb_comm]; reflexivity.
Qed.

(** ** At most two sides *)
Lemma three_apart (ax ay bx by_ cx cy : R) : (cx - ax) * (by_ - ay) = (cy - ay) * (bx - ax) -> ax < cx < bx -> (cy < ay /\ cy < by_) \/ (ay < cy /\ by_ < cy) -> False.
Proof.
  intros E [X1 X2] H. assert (K : (cy - ay) * (bx - cx) + (cy - by_) * (cx - ax) = 0) by lra.
  destruct H as [[Y1 Y2]|[Y1 Y2]].
  - pose proof (Rmult_lt_0_compat _ _ (Rgt_minus _ _ Y1 : 0 < ay - cy) (Rgt_minus _ _ X2 : 0 < bx - cx)). pose proof (Rmult_lt_0_compat _ _ (Rgt_minus _ _ Y2 : 0 < by_ - cy) (Rgt_minus _ _ X1 : 0 < cx - ax)). lra.
  - pose proof (Rmult_lt_0_compat _ _ (Rgt_minus _ _ Y1 : 0 < cy - ay) (Rgt_minus _ _ X2 : 0 < bx - cx)). pose proof (Rmult_lt_0_compat _ _ (Rgt_minus _ _ Y2 : 0 < cy - by_) (Rgt_minus _ _ X1 : 0 < cx - ax)). lra.
Qed.
Lemma on_line2_col p1 p2 a b c : on_line2 p1 p2 a -> on_line2 p1 p2 b -> on_line2 p1 p2 c -> (px c - px a) * (py b - py a) = (py c - py a) * (px b - px a).
Proof. intros (s & ->) (t & ->) (w & ->). unfold lerp, px, py. cbn [fst snd]. ring. Qed.

(** The four sides, for any computed line; [OL] holds at its exact points. *)
Definition side_found (k : Z) (m : R) (g : vec F -> F) (lo hi : F) (v : vec F) (o : option point) : Prop :=
  match o with
  | Some q => (v_valid v && Bleb lo (g v) && Bleb (g v) hi = true)%bool /\ hit_at k m v q
  | None => (v_valid v && Bleb lo (g v) && Bleb (g v) hi = false)%bool
  end.
Lemma rect_any_core (L : libm) (k : Z) (m : R) (r : rect F) (l : line F) (OL : point -> Prop) (ol or ot ob : option point) : (-200 <= k <= 200)%Z ->
  (forall a b c, OL a -> OL b -> OL c -> (px c - px a) * (py b - py a) = (py c - py a) * (px b - px a)) ->
  let le := @Rect2D_left F r in let ri := @Rect2D_right F (NumF L) r in let to := @Rect2D_top F r in let bo := @Rect2D_bottom F (NumF L) r in
  let tl := @Rect2D_top_left F r in let tr := @Rect2D_top_right F (NumF L) r in let bl := @Rect2D_bottom_left F (NumF L) r in let br := @Rect2D_bottom_right F (NumF L) r in
  let cut a b := @Line2D_intersection F (NumF L) (@Line2D_of_points F (NumF L) a b) l in
  (exists v, cut tl bl = Ok v /\ side_found k m (@vy F) to bo v ol) -> (exists v, cut tr br = Ok v /\ side_found k m (@vy F) to bo v or) ->
  (exists v, cut tl tr = Ok v /\ side_found k m (@vx F) le ri v ot) -> (exists v, cut bl br = Ok v /\ side_found k m (@vx F) le ri v ob) ->
  (forall q, ol = Some q -> px q = B2R le /\ B2R to < py q < B2R bo /\ OL q) -> (forall q, or = Some q -> px q = B2R ri /\ B2R to < py q < B2R bo /\ OL q) ->
  (forall q, ot = Some q -> py q = B2R to /\ B2R le < px q < B2R ri /\ OL q) -> (forall q, ob = Some q -> py q = B2R bo /\ B2R le < px q < B2R ri /\ OL q) ->
  let H := hits [ol; or; ot; ob] in
  let res := @Rect2D_intersection F (NumF L) r (VLine l) in
  (List.length H <= 2)%nat /\
  exists vs, Forall2 (hit_at k m) vs H /\ (res = Ok vs \/ exists v w, vs = [v; w] /\ res = Ok [v] /\ weakly_near v w).
Proof.
  intros Hk COL le ri to bo tl tr bl br cut (v1 & E1 & P1) (v2 & E2 & P2) (v3 & E3 & P3) (v4 & E4 & P4) KL KR KT KB H res. unfold cut, tl, tr, bl, br in E1, E2, E3, E4. clear cut tl tr bl br. unfold side_found in P1, P2, P3, P4.
  (* pairing two points *)
  assert (DD : forall (v w : vec F), within (k + 1) v -> within (k + 1) w ->
    let t := (if @nltb F (NumF L) (@nabs F (NumF L) (@nsub F (NumF L) (vx v) (vx w))) (@EPSILON F (NumF L)) && @nltb F (NumF L) (@nabs F (NumF L) (@nsub F (NumF L) (vy v) (vy w))) (@EPSILON F (NumF L)) then Ok [v] else Ok [v; w]) in
    t = Ok [v; w] \/ t = Ok [v] /\ weakly_near v w).
  { intros v w (A1 & A2 & A3 & A4) (B1 & B2 & B3 & B4) t. unfold t. match goal with |- context [if ?b then _ else _] => destruct b eqn:E end; [right|left; reflexivity]. split; [reflexivity|]. apply andb_true_iff in E. destruct E as [E5 E6].
    split; eapply (weak_test L _ _ (k + 1)); try eassumption; try lia; split; assumption. }
  unfold res. cbn [Rect2D_intersection]. unfold Rect2D_intersection_line, rect_vertical_side, rect_horizontal_side.
  change (@Rect2D_left_edge F (NumF L) r) with (@Line2D_of_points F (NumF L) (@Rect2D_top_left F r) (@Rect2D_bottom_left F (NumF L) r)).
  change (@Rect2D_right_edge F (NumF L) r) with (@Line2D_of_points F (NumF L) (@Rect2D_top_right F (NumF L) r) (@Rect2D_bottom_right F (NumF L) r)).
  change (@Rect2D_top_edge F (NumF L) r) with (@Line2D_of_points F (NumF L) (@Rect2D_top_left F r) (@Rect2D_top_right F (NumF L) r)).
  change (@Rect2D_bottom_edge F (NumF L) r) with (@Line2D_of_points F (NumF L) (@Rect2D_bottom_left F (NumF L) r) (@Rect2D_bottom_right F (NumF L) r)).
  fold le ri to bo. cbn [nleb NumF]. rewrite E1, E2, E3, E4. cbn [bind].
  unfold H. clear E1 E2 E3 E4 res H.
  destruct ol as [ql|], or as [qr|], ot as [qt|], ob as [qb|]; cbn [hits flat_map app List.length];
    repeat match goal with P : _ /\ hit_at _ _ _ _ |- _ => let a := fresh "T" in destruct P as (a & ?); rewrite ?a; clear a end;
    repeat match goal with P : (_ && _ && _)%bool = false |- _ => rewrite ?P; clear P end;
    cbn [app List.length Nat.ltb Nat.leb bind];
    repeat match goal with P : (_ && _ && _)%bool = _ |- _ => rewrite ?P end; cbn [app List.length Nat.ltb Nat.leb bind].
  all: try (exfalso; specialize (KL _ eq_refl); specialize (KR _ eq_refl); specialize (KT _ eq_refl); destruct KL as (? & ? & C1), KR as (? & ? & C2), KT as (? & ? & C3); eapply three_apart; [apply (COL _ _ _ C1 C2 C3)|..]; lra).
  all: try (exfalso; specialize (KL _ eq_refl); specialize (KR _ eq_refl); specialize (KB _ eq_refl); destruct KL as (? & ? & C1), KR as (? & ? & C2), KB as (? & ? & C3); eapply three_apart; [apply (COL _ _ _ C1 C2 C3)|..]; lra).
  all: try (exfalso; specialize (KL _ eq_refl); specialize (KT _ eq_refl); specialize (KB _ eq_refl); destruct KL as (? & ? & C1), KT as (? & ? & C2), KB as (? & ? & C3); eapply three_apart; [symmetry; apply (COL _ _ _ C2 C3 C1)|..]; lra).
  all: try (exfalso; specialize (KR _ eq_refl); specialize (KT _ eq_refl); specialize (KB _ eq_refl); destruct KR as (? & ? & C1), KT as (? & ? & C2), KB as (? & ? & C3); eapply three_apart; [symmetry; apply (COL _ _ _ C2 C3 C1)|..]; lra).
  all: split; [lia|].
  all: first [ exists []; split; [constructor|left; reflexivity]
    | eexists [_]; split; [constructor; [eassumption|constructor]|left; reflexivity]
    | eexists [_; _]; split; [constructor; [eassumption|constructor; [eassumption|constructor]]|];
      match goal with |- (?t = _ \/ _) => match t with context [Ok [?v; ?w]] => destruct (DD v w ltac:(match goal with P : hit_at _ _ v _ |- _ => exact (proj2 P) end) ltac:(match goal with P : hit_at _ _ w _ |- _ => exact (proj2 P) end)) as [T|[T T']]; [left; exact T|right; exists v, w; split; [reflexivity|split; [exact T|exact T']]] end end ].
Qed.
Lemma rect_line_core : forall (L : libm) (k : Z) (m : R) (r : rect F) (p1 p2 : vec F) (ol or ot ob : option point), (-200 <= k <= 200)%Z ->
  within k (@Rect2D_top_left F r) -> within k (@Rect2D_bottom_right F (NumF L) r) -> within k p1 -> within k p2 ->
  let tl := fpt (@Rect2D_top_left F r) in let tr := fpt (@Rect2D_top_right F (NumF L) r) in let bl := fpt (@Rect2D_bottom_left F (NumF L) r) in let br := fpt (@Rect2D_bottom_right F (NumF L) r) in
  cuts k m py (py tl) (py br) tl bl (fpt p1) (fpt p2) ol -> cuts k m py (py tl) (py br) tr br (fpt p1) (fpt p2) or ->
  cuts k m px (px tl) (px br) tl tr (fpt p1) (fpt p2) ot -> cuts k m px (px tl) (px br) bl br (fpt p1) (fpt p2) ob ->
  let H := hits [ol; or; ot; ob] in
  let res := @Rect2D_intersection F (NumF L) r (VLine (@Line2D_of_points F (NumF L) p1 p2)) in
  (List.length H <= 2)%nat /\
  exists vs, Forall2 (hit_at k m) vs H /\ (res = Ok vs \/ exists v w, vs = [v; w] /\ res = Ok [v] /\ weakly_near v w).
Proof.
  intros L k m r p1 p2 ol or ot ob Hk (X1 & Y1 & X2 & Y2) (X3 & Y3 & X4 & Y4) W1 W2 tl tr bl br CL CR CT CB H res.
  set (le := @Rect2D_left F r). set (ri := @Rect2D_right F (NumF L) r). set (to := @Rect2D_top F r). set (bo := @Rect2D_bottom F (NumF L) r).
  change (vx (@Rect2D_top_left F r)) with le in *. change (vy (@Rect2D_top_left F r)) with to in *. change (vx (@Rect2D_bottom_right F (NumF L) r)) with ri in *. change (vy (@Rect2D_bottom_right F (NumF L) r)) with bo in *.
  assert (WTL : within k (@Rect2D_top_left F r)) by (repeat split; assumption). assert (WBR : within k (@Rect2D_bottom_right F (NumF L) r)) by (repeat split; assumption).
  assert (WTR : within k (@Rect2D_top_right F (NumF L) r)) by (repeat split; assumption). assert (WBL : within k (@Rect2D_bottom_left F (NumF L) r)) by (repeat split; assumption).
  change (py tl) with (B2R to) in *. change (py br) with (B2R bo) in *. change (px tl) with (B2R le) in *. change (px br) with (B2R ri) in *.
  destruct (side_step L k m py (@vy F) to bo _ _ p1 p2 ol Hk WTL WBL W1 W2 Y1 Y3 ltac:(right; repeat split; reflexivity) Y2 Y4 CL) as (v1 & E1 & P1).
  destruct (side_step L k m py (@vy F) to bo _ _ p1 p2 or Hk WTR WBR W1 W2 Y1 Y3 ltac:(right; repeat split; reflexivity) Y2 Y4 CR) as (v2 & E2 & P2).
  destruct (side_step L k m px (@vx F) le ri _ _ p1 p2 ot Hk WTL WTR W1 W2 X1 X3 ltac:(left; repeat split; reflexivity) X2 X4 CT) as (v3 & E3 & P3).
  destruct (side_step L k m px (@vx F) le ri _ _ p1 p2 ob Hk WBL WBR W1 W2 X1 X3 ltac:(left; repeat split; reflexivity) X2 X4 CB) as (v4 & E4 & P4).
  (* the exact cuts *)
  assert (SV : forall a b o q, o = Some q -> cuts k m py (B2R to) (B2R bo) a b (fpt p1) (fpt p2) o -> px a = px b -> px q = px a /\ B2R to < py q < B2R bo /\ on_line2 (fpt p1) (fpt p2) q).
  { intros a b o q -> (O1 & O2 & F & D1 & D2 & E) EX. set (D := Rabs _) in *. assert (PM : 0 < m) by (apply Rlt_le_trans with (2 := E); apply Rdiv_lt_0_compat; [apply bpow_gt_0|lra]).
    split; [|split; [lra|exact O2]]. destruct O1 as (t & ->). unfold lerp, px in *. cbn [fst]. rewrite EX. ring. }
  assert (SH : forall a b o q, o = Some q -> cuts k m px (B2R le) (B2R ri) a b (fpt p1) (fpt p2) o -> py a = py b -> py q = py a /\ B2R le < px q < B2R ri /\ on_line2 (fpt p1) (fpt p2) q).
  { intros a b o q -> (O1 & O2 & F & D1 & D2 & E) EX. set (D := Rabs _) in *. assert (PM : 0 < m) by (apply Rlt_le_trans with (2 := E); apply Rdiv_lt_0_compat; [apply bpow_gt_0|lra]).
    split; [|split; [lra|exact O2]]. destruct O1 as (t & ->). unfold lerp, py in *. cbn [snd]. rewrite EX. ring. }
  assert (KL := fun q Q => SV tl bl ol q Q CL eq_refl). assert (KR := fun q Q => SV tr br or q Q CR eq_refl). assert (KT := fun q Q => SH tl tr ot q Q CT eq_refl). assert (KB := fun q Q => SH bl br ob q Q CB eq_refl).
  change (px tl) with (B2R le) in KL. change (px tr) with (B2R ri) in KR. change (py tl) with (B2R to) in KT. change (py bl) with (B2R bo) in KB.
  apply (rect_any_core L k m r _ (on_line2 (fpt p1) (fpt p2))); try assumption; [intros a b c; apply on_line2_col|exists v1|exists v2|exists v3|exists v4]; split; assumption.
Qed.
(** Rect2D.intersection with the line through two points, in doubles.  If every corner
    and both points have coordinates up to 2^k, and each side is either clearly cut or
    clearly missed, then at most two sides are cut, and the result has one point for
    each cut, within [m] of it in each coordinate, left and right before top and
    bottom; two cuts that come out closer than 1e-6 may be reported as one. *)
Theorem C171_rect_line_F : forall (L : libm) (k : Z) (m : R) (r : rect F) (p1 p2 : vec F) (ol or ot ob : option point), (-200 <= k <= 200)%Z ->
  within k (@Rect2D_top_left F r) -> within k (@Rect2D_bottom_right F (NumF L) r) -> within k p1 -> within k p2 ->
  let tl := fpt (@Rect2D_top_left F r) in let tr := fpt (@Rect2D_top_right F (NumF L) r) in let bl := fpt (@Rect2D_bottom_left F (NumF L) r) in let br := fpt (@Rect2D_bottom_right F (NumF L) r) in
  cuts k m py (py tl) (py br) tl bl (fpt p1) (fpt p2) ol -> cuts k m py (py tl) (py br) tr br (fpt p1) (fpt p2) or ->
  cuts k m px (px tl) (px br) tl tr (fpt p1) (fpt p2) ot -> cuts k m px (px tl) (px br) bl br (fpt p1) (fpt p2) ob ->
  (List.length (hits [ol; or; ot; ob]) <= 2)%nat /\
  exists l, @Line2D_init F (NumF L) [VVec p1; VVec p2] [] = Ok l /\ reported m (@Rect2D_intersection F (NumF L) r (VLine l)) (hits [ol; or; ot; ob]).
Proof.
  intros L k m r p1 p2 ol or ot ob Hk W1 W2 W3 W4 tl tr bl br CL CR CT CB.
  destruct (rect_line_core L k m r p1 p2 ol or ot ob Hk W1 W2 W3 W4 CL CR CT CB) as (N & vs & A & B). split; [exact N|]. eexists. split; [reflexivity|]. exists vs. split; [|exact B].
  clear - A. induction A as [|v q vs qs [A _] _ IH]; constructor; assumption.
Qed.

(** The cuts that lie on a segment from a to b, clear of its ends; the others are
    clearly outside the box spanned by its ends. *)
Inductive kept (m : R) (a b : point) : list point -> list point -> Prop :=
| kept_nil : kept m a b [] []
| kept_in q qs K : inside_box q a b -> clear_of_ends m a b q -> kept m a b qs K -> kept m a b (q :: qs) (q :: K)
| kept_out q qs K : beyond_box (m + / 31000) q a b -> kept m a b qs K -> kept m a b (q :: qs) K.

Lemma within_up k n v : (k <= n)%Z -> within k v -> within n v.
Proof. intros H (A & B & C & D). assert (bpow radix2 k <= bpow radix2 n) by (now apply bpow_le). repeat split; try assumption; lra. Qed.
Lemma hit_in L k m (s : seg F) v q : (-200 <= k <= 200)%Z -> 0 <= m <= / 32768 -> within k (s_origin s) -> within k (s_terminal s) -> hit_at k m v q ->
  inside_box q (fpt (s_origin s)) (fpt (s_terminal s)) -> clear_of_ends m (fpt (s_origin s)) (fpt (s_terminal s)) q -> @Segment2D_contains F (NumF L) s v = true.
Proof.
  intros Hk Hm O T [(_ & _ & _ & N1 & N2) W] [B1 B2] [C1 C2]. destruct (contains_F L (k + 1) s v ltac:(lia) (within_up k (k + 1) _ ltac:(lia) O) (within_up k (k + 1) _ ltac:(lia) T) W) as [C _].
  apply C; [apply (clear_coord m _ (px q))|apply (clear_coord m _ (py q))]; try assumption; lra.
Qed.
Lemma hit_out L k m (s : seg F) v q : (-200 <= k <= 200)%Z -> within k (s_origin s) -> within k (s_terminal s) -> hit_at k m v q ->
  beyond_box (m + / 31000) q (fpt (s_origin s)) (fpt (s_terminal s)) -> @Segment2D_contains F (NumF L) s v = false.
Proof.
  intros Hk O T [(_ & _ & _ & N1 & N2) W] B. refine (proj2 (C149_contains_F L (k + 1) s v _ (within_up k (k + 1) _ _ O) (within_up k (k + 1) _ _ T) W) _); try lia.
  unfold beyond_box in *. apply Rabs_le_inv in N1, N2. unfold fpt, px, py in *. cbn [fst snd] in *. destruct B as [B|[B|[B|B]]]; lra.
Qed.
(** a point clearly in and a point clearly out are not merged *)
Lemma in_out_apart k m (s : seg F) v w q1 q2 : 0 <= m <= / 32768 -> hit_at k m v q1 -> hit_at k m w q2 ->
  beyond_box (m + / 31000) q1 (fpt (s_origin s)) (fpt (s_terminal s)) -> inside_box q2 (fpt (s_origin s)) (fpt (s_terminal s)) -> clear_of_ends m (fpt (s_origin s)) (fpt (s_terminal s)) q2 -> weakly_near v w -> False.
Proof.
  intros Hm [(_ & _ & _ & N1 & N2) _] [(_ & _ & _ & N3 & N4) _] B [I1 I2] [C1 C2] [W1 W2]. unfold beyond_box in B. set (a := fpt (s_origin s)) in *. set (b := fpt (s_terminal s)) in *. clearbody a b.
  apply Rabs_le_inv in N1, N2, N3, N4, W1, W2. unfold fpt, px, py in *. cbn [fst snd] in *. destruct a as [ax ay], b as [bx by_], q1 as [x1 y1], q2 as [x2 y2]. cbn [fst snd] in *.
  assert (G : forall z x2 a b, Rmin a b <= x2 <= Rmax a b -> z - x2 <= m -> - m <= z - x2 -> Rmax a b + / 31000 - 1 / 999998 <= z \/ z <= Rmin a b - / 31000 + 1 / 999998 -> False) by (intros; lra).
  destruct B as [B|[B|[B|B]]]; [eapply (G (B2R (vx w)) x2 ax bx)|eapply (G (B2R (vx w)) x2 ax bx)|eapply (G (B2R (vy w)) y2 ay by_)|eapply (G (B2R (vy w)) y2 ay by_)]; lra.
Qed.

(** Rect2D.intersection with a segment, in doubles: the cuts of its line that lie on it. *)
Theorem C171_rect_segment_F : forall (L : libm) (k : Z) (m : R) (r : rect F) (s : seg F) (ol or ot ob : option point) (K : list point), (-200 <= k <= 200)%Z -> m <= / 32768 ->
  let p1 := s_origin s in let p2 := s_terminal s in
  within k (@Rect2D_top_left F r) -> within k (@Rect2D_bottom_right F (NumF L) r) -> within k p1 -> within k p2 ->
  let tl := fpt (@Rect2D_top_left F r) in let tr := fpt (@Rect2D_top_right F (NumF L) r) in let bl := fpt (@Rect2D_bottom_left F (NumF L) r) in let br := fpt (@Rect2D_bottom_right F (NumF L) r) in
  cuts k m py (py tl) (py br) tl bl (fpt p1) (fpt p2) ol -> cuts k m py (py tl) (py br) tr br (fpt p1) (fpt p2) or ->
  cuts k m px (px tl) (px br) tl tr (fpt p1) (fpt p2) ot -> cuts k m px (px tl) (px br) bl br (fpt p1) (fpt p2) ob ->
  kept m (fpt p1) (fpt p2) (hits [ol; or; ot; ob]) K ->
  reported m (@Rect2D_intersection F (NumF L) r (VSeg s)) K.
Proof.
  intros L k m r s ol or ot ob K Hk Hm p1 p2 W1 W2 W3 W4 tl tr bl br CL CR CT CB KK.
  destruct (rect_line_core L k m r p1 p2 ol or ot ob Hk W1 W2 W3 W4 CL CR CT CB) as (N & vs & A & B). set (H := hits _) in *. clearbody H. clear CL CR CT CB.
  assert (PM : forall v q, hit_at k m v q -> 0 <= m <= / 32768) by (intros v q [(_ & _ & _ & X & _) _]; pose proof (Rabs_pos (B2R (vx v) - px q)); split; lra).
  assert (SG : forall us, @Rect2D_intersection F (NumF L) r (VLine (@Line2D_of_points F (NumF L) p1 p2)) = Ok us -> @Rect2D_intersection F (NumF L) r (VSeg s) = Ok (List.filter (@Segment2D_contains F (NumF L) s) us)) by (intros us; apply (C63_intersection_seg r s us)).
  assert (FI : forall H vs K, Forall2 (hit_at k m) vs H -> kept m (fpt p1) (fpt p2) H K -> Forall2 (hit_at k m) (List.filter (@Segment2D_contains F (NumF L) s) vs) K).
  { clear - Hk W3 W4 PM. intros H vs K A. revert K. induction A as [|v q vs qs A A' IH]; intros K KK; inversion KK; subst; cbn [List.filter]; [constructor| |].
    - rewrite (hit_in L k m s v q Hk (PM _ _ A) W3 W4 A) by assumption. constructor; [exact A|]. now apply IH.
    - rewrite (hit_out L k m s v q Hk W3 W4 A) by assumption. now apply IH. }
  assert (DR : forall vs K, Forall2 (hit_at k m) vs K -> Forall2 (reports m) vs K) by (clear; intros vs K A; induction A as [|v q vs qs [A _] _ IH]; constructor; assumption).
  assert (R1 := FI _ _ _ A KK). destruct B as [B|(v & w & -> & B & WN)].
  - exists (List.filter (@Segment2D_contains F (NumF L) s) vs). split; [now apply DR|]. left. now apply SG.
  - apply SG in B. inversion A as [|v' q1 vs' qs A1 A2 Q1 Q2]. subst. inversion A2 as [|w' q2 vs' qs' A3 A4 Q1 Q2]. subst. inversion A4. subst. clear A A2 A4. cbn [List.filter] in *.
    inversion KK as [|q' qs' K' I1 I2 KK' Q1 Q2|q' qs' K' I1 KK' Q1 Q2]; subst; inversion KK' as [|q' qs' K'' J1 J2 KK'' Q1 Q2|q' qs' K'' J1 KK'' Q1 Q2]; subst; inversion KK''; subst.
    + rewrite (hit_in L k m s v q1 Hk (PM _ _ A1) W3 W4 A1) in B, R1 by assumption. rewrite (hit_in L k m s w q2 Hk (PM _ _ A1) W3 W4 A3) in R1 by assumption. exists [v; w]. split; [now apply DR|]. right. exists v, w. repeat split; try assumption; apply WN.
    + rewrite (hit_in L k m s v q1 Hk (PM _ _ A1) W3 W4 A1) in B, R1 by assumption. rewrite (hit_out L k m s w q2 Hk W3 W4 A3) in R1 by assumption. exists [v]. split; [now apply DR|]. left. exact B.
    + exfalso. eapply (in_out_apart k m s v w q1 q2 (PM _ _ A1)); eassumption.
    + rewrite (hit_out L k m s v q1 Hk W3 W4 A1) in B, R1 by assumption. exists []. split; [constructor|]. left. exact B.
Qed.
(** The line through (-1, 1) and (5, 3) cuts the left and right sides of the
    square [0, 4] x [0, 4] and misses the other two; both cuts lie on the segment. *)
Example C171_nonvacuous : exists (r : rect F) (p1 p2 : vec F), forall L : libm,
  within 3 (@Rect2D_top_left F r) /\ within 3 (@Rect2D_bottom_right F (NumF L) r) /\ within 3 p1 /\ within 3 p2 /\
  let tl := fpt (@Rect2D_top_left F r) in let tr := fpt (@Rect2D_top_right F (NumF L) r) in let bl := fpt (@Rect2D_bottom_left F (NumF L) r) in let br := fpt (@Rect2D_bottom_right F (NumF L) r) in
  cuts 3 (/ 65536) py (py tl) (py br) tl bl (fpt p1) (fpt p2) (Some (0, 4 / 3)) /\ cuts 3 (/ 65536) py (py tl) (py br) tr br (fpt p1) (fpt p2) (Some (4, 8 / 3)) /\
  cuts 3 (/ 65536) px (px tl) (px br) tl tr (fpt p1) (fpt p2) None /\ cuts 3 (/ 65536) px (px tl) (px br) bl br (fpt p1) (fpt p2) None /\
  kept (/ 65536) (fpt p1) (fpt p2) (hits [Some (0, 4 / 3); Some (4, 8 / 3); None; None]) [(0, 4 / 3); (4, 8 / 3)].
Proof.
  exists (mkRect (fv 0 0) (mkSize (F_of_Z 4) (F_of_Z 4)) true), (fv (-1) 1), (fv 5 3). intros L.
  assert (G : Bplus mode_NE (F_of_Z 0) (F_of_Z 4) = F_of_Z 4) by (apply B2SF_inj; vm_compute; reflexivity).
  unfold Rect2D_top_left, Rect2D_bottom_right, Rect2D_top_right, Rect2D_bottom_left, Rect2D_left, Rect2D_right, Rect2D_top, Rect2D_bottom, fv. unfold Rect2D_left, Rect2D_top. cbn [r_top_left r_size vx vy sz_length sz_width nadd NumF]. rewrite !G.
  split; [apply (within_fv 0 0); lia|]. split; [apply (within_fv 4 4); lia|]. split; [apply (within_fv (-1) 1); lia|]. split; [apply (within_fv 5 3); lia|].
  cbv zeta. unfold fpt, Vector2D_of_vec. cbn [vx vy V].
  destruct (F_of_Z_exact 0 eq_refl) as [E0 _]. destruct (F_of_Z_exact 4 eq_refl) as [E4 _]. destruct (F_of_Z_exact (-1) eq_refl) as [Em _]. destruct (F_of_Z_exact 1 eq_refl) as [E1 _]. destruct (F_of_Z_exact 5 eq_refl) as [E5 _]. destruct (F_of_Z_exact 3 eq_refl) as [E3 _].
  rewrite E0, E4, Em, E1, E5, E3. unfold px, py. cbn [fst snd].
  assert (B : forall e, (e <= 0)%Z -> 0 < bpow radix2 e <= 1) by (intros e He; split; [apply bpow_gt_0|change 1 with (bpow radix2 0); now apply bpow_le]).
  assert (DV : forall a d, 0 < a <= 1 -> 1 <= d -> 0 < a / d <= 1) by (intros a d A Dd; split; [apply Rdiv_lt_0_compat; lra|apply Rmult_le_reg_r with d; [lra|]; unfold Rdiv; rewrite Rmult_assoc, Rinv_l by lra; lra]).
  unfold cuts, cross, psub, px, py. cbv zeta. cbn [fst snd].
  assert (D1 : Rabs ((0 - 0) * (3 - 1) - (4 - 0) * (5 - -1)) = 24) by (rewrite Rabs_left; lra).
  assert (D2 : Rabs ((4 - 4) * (3 - 1) - (4 - 0) * (5 - -1)) = 24) by (rewrite Rabs_left; lra).
  assert (D3 : Rabs ((4 - 0) * (3 - 1) - (0 - 0) * (5 - -1)) = 8) by (rewrite Rabs_pos_eq; lra).
  assert (D4 : Rabs ((4 - 0) * (3 - 1) - (4 - 4) * (5 - -1)) = 8) by (rewrite Rabs_pos_eq; lra).
  rewrite D1, D2, D3, D4. pose proof (B (2 * 3 - 45)%Z ltac:(lia)). pose proof (B (3 * 3 - 45)%Z ltac:(lia)). pose proof (B (4 + 2 * 3 - 45)%Z ltac:(lia)).
  assert (B16 : 0 < bpow radix2 (3 * 3 - 45) / 24 <= / 65536) by (change (bpow radix2 (3 * 3 - 45)) with (/ 68719476736); lra). pose proof (DV _ 8 (B (4 + 2 * 3 - 45)%Z ltac:(lia)) ltac:(lra)).
  assert (O : forall a b c d x y t, x = a + t * (c - a) -> y = b + t * (d - b) -> on_line2 (a, b) (c, d) (x, y)) by (intros a b c d x y t -> ->; exists t; reflexivity).
  split; [repeat split; try lra; [apply (O _ _ _ _ _ _ (1 / 3)); lra|apply (O _ _ _ _ _ _ (1 / 6)); lra]|].
  split; [repeat split; try lra; [apply (O _ _ _ _ _ _ (2 / 3)); lra|apply (O _ _ _ _ _ _ (5 / 6)); lra]|].
  change (bpow radix2 4) with 16.
  split; [|split]; [right|right|]; [exists 4%Z, (-4, 0)|exists 4%Z, (8, 4)|]; [split; [lia|]; cbn [fst snd]; change (bpow radix2 4) with 16; repeat split; try (apply Rabs_le); try lra..|].
  - apply (O _ _ _ _ _ _ (-1)); lra.
  - apply (O _ _ _ _ _ _ (-1 / 2)); lra.
  - apply (O _ _ _ _ _ _ 2); lra.
  - apply (O _ _ _ _ _ _ (3 / 2)); lra.
  - assert (MM : Rmin (-1) 5 = -1 /\ Rmax (-1) 5 = 5 /\ Rmin 1 3 = 1 /\ Rmax 1 3 = 3) by (unfold Rmin, Rmax; repeat destruct (Rle_dec _ _); lra). destruct MM as (M1 & M2 & M3 & M4).
    unfold hits. cbn [flat_map app]. constructor; [| |constructor; [| |constructor]]; unfold inside_box, clear_of_ends, px, py; cbn [fst snd]; rewrite ?M1, ?M2, ?M3, ?M4; try lra.
    + split; right; (split; [rewrite Rabs_pos_eq|rewrite Rabs_left]; lra).
    + split; right; (split; [rewrite Rabs_pos_eq|rewrite Rabs_left]; lra).
Qed.
