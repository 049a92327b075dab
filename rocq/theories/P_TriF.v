(** * P_TriF: where a line meets a segment or a triangle, in doubles (C172) *)
From Coq Require Import ZArith List Bool String Reals Lra Lia Psatz.
From Flocq Require Import Core BinarySingleNaN.
From Verif Require Import Base Types NumR NumF R_Tac Spec Spec2 Abs M_Angle M_Vector M_Line M_Triangle M_Segment M_Triangle2
  L_Angle P_Vector P_Line L_Float P_Float P_AngleF P_Robust P_Hull2 P_VecF P_TrigF P_LineF P_MatF P_CircF P_CircF2 P_RayF P_SegF2 P_CutF.
Import ListNotations.
Local Open Scope R_scope.

(** ** Specification *)
(** How the line through p1 and p2 meets the segment from a to b: either in a point
    [q] of the segment that is not too near its ends, or not at all: the two are
    (almost) parallel or meet clearly outside the box spanned by a and b.  [m] bounds
    the error of the computed meeting point. *)
Definition meets (k : Z) (m : R) (a b p1 p2 : point) (o : option point) : Prop :=
  let D := Rabs (cross (psub b a) (psub p2 p1)) in
  match o with
  | Some q => on_seg a b q /\ on_line2 p1 p2 q /\ clear_of_ends m a b q /\ bpow radix2 (2 * k - 45) <= D /\ 2 / 999999 <= D /\ bpow radix2 (3 * k - 45) / D <= m
  | None => D + bpow radix2 (2 * k - 49) < 1 / 1000001 \/
      exists (n : Z) (q : point), (k <= n <= 300)%Z /\ on_line2 a b q /\ on_line2 p1 p2 q /\ Rabs (px q) <= bpow radix2 n /\ Rabs (py q) <= bpow radix2 n /\
        bpow radix2 (2 * k - 45) <= D /\ 2 / 999999 <= D /\ beyond_box (bpow radix2 (n + 2 * k - 45) / D + / 31000) q a b
  end.
(** The answer for one segment. *)
Definition answers (m : R) (v : vec F) (o : option point) : Prop :=
  match o with Some q => reports m v q | None => v_valid v = false end.

(** ** A segment and a line *)
Lemma seg_line_core L k m (s : seg F) (p1 p2 : vec F) o : (-200 <= k <= 200)%Z -> m <= / 32768 -> within k (s_origin s) -> within k (s_terminal s) -> within k p1 -> within k p2 ->
  meets k m (fpt (s_origin s)) (fpt (s_terminal s)) (fpt p1) (fpt p2) o ->
  exists v, @Segment2D_intersection_line F (NumF L) s (@Line2D_of_points F (NumF L) p1 p2) = Ok v /\ answers m v o /\ (o <> None -> within (k + 1) v).
Proof.
  intros Hk Hm WA WB W1 W2 C. unfold meets in C. set (D := Rabs _) in C. unfold Segment2D_intersection_line, Segment2D_line. destruct o as [q|].
  - destruct C as (O1 & O2 & CE & D1 & D2 & E). assert (I1 := on_seg_between _ _ _ O1). destruct (box_bound k _ _ q WA WB I1) as [QX QY].
    assert (L1 : on_line2 (fpt (s_origin s)) (fpt (s_terminal s)) q) by (destruct O1 as (t & _ & H); now exists t).
    destruct (C144_intersection_F L k k _ _ _ _ q Hk ltac:(lia) WA WB W1 W2 D1 D2 L1 O2 QX QY) as (l1 & l2 & v & E1 & E2 & V & V0 & V1 & V2 & V3 & V4).
    injection E1 as <-. injection E2 as <-. fold D in V3, V4. replace (k + 2 * k - 45)%Z with (3 * k - 45)%Z in V3, V4 by lia.
    assert (MK : bpow radix2 (3 * k - 45) / D <= bpow radix2 k).
    { apply Rmult_le_reg_r with D; [lra|]. unfold Rdiv. rewrite Rmult_assoc, Rinv_l, Rmult_1_r by lra. replace (3 * k - 45)%Z with (k + (2 * k - 45))%Z by lia. rewrite bpow_plus. apply Rmult_le_compat_l; [apply bpow_ge_0|exact D1]. }
    assert (HA : hit_at k m v q).
    { split; [split; [exact V0|split; [exact V1|split; [exact V2|split; eapply Rle_trans; try exact E; assumption]]]|].
      split; [exact V1|]. split; [exact V2|]. rewrite Z.add_comm, bp2. unfold fpt, px, py in V3, V4. cbn [fst snd] in V3, V4. fold (px q) in V3. fold (py q) in V4. apply Rabs_le_inv in V3, V4, QX, QY. split; apply Rabs_le; lra. }
    assert (PM : 0 <= m) by (pose proof (Rabs_pos (px (fpt v) - px q)); lra).
    exists v. rewrite V. cbn [bind]. rewrite V0, (hit_in L k m s v q Hk (conj PM Hm) WA WB HA I1 CE). cbn [negb orb]. split; [reflexivity|]. split; [exact (proj1 HA)|]. intros _. exact (proj2 HA).
  - destruct C as [C|(n & q & Hn & O1 & O2 & QX & QY & D1 & D2 & C)].
    + destruct (C144_parallel_F L k _ _ p1 p2 Hk WA WB W1 W2 C) as (l1 & l2 & L1 & L2 & V). injection L1 as <-. injection L2 as <-. exists (@Vector2D_invalid F (NumF L)). rewrite V. split; [reflexivity|]. split; [reflexivity|]. intros H; now elim H.
    + destruct (C144_intersection_F L k n _ _ p1 p2 q Hk ltac:(lia) WA WB W1 W2 D1 D2 O1 O2 QX QY) as (l1 & l2 & v & L1 & L2 & V & V0 & V1 & V2 & V3 & V4).
      injection L1 as <-. injection L2 as <-. fold D in V3, V4. set (e := bpow radix2 (n + 2 * k - 45) / D) in *.
      assert (EK : e <= bpow radix2 n).
      { unfold e. apply Rmult_le_reg_r with D; [lra|]. unfold Rdiv. rewrite Rmult_assoc, Rinv_l, Rmult_1_r by lra. replace (n + 2 * k - 45)%Z with (n + (2 * k - 45))%Z by lia. rewrite bpow_plus. apply Rmult_le_compat_l; [apply bpow_ge_0|exact D1]. }
      assert (WV : within (n + 1) v).
      { split; [exact V1|]. split; [exact V2|]. rewrite Z.add_comm, bp2. unfold fpt, px, py in V3, V4. cbn [fst snd] in V3, V4. fold (px q) in V3. fold (py q) in V4. apply Rabs_le_inv in V3, V4, QX, QY. split; apply Rabs_le; lra. }
      exists (@Vector2D_invalid F (NumF L)). rewrite V. cbn [bind].
      rewrite (proj2 (C149_contains_F L (n + 1) s v ltac:(lia) (within_up k (n + 1) _ ltac:(lia) WA) (within_up k (n + 1) _ ltac:(lia) WB) WV)).
      * rewrite orb_true_r. split; [reflexivity|]. split; [reflexivity|]. intros H; now elim H.
      * unfold beyond_box in *. apply Rabs_le_inv in V3, V4. destruct C as [C|[C|[C|C]]]; lra.
Qed.
(** Segment2D.intersection(line) in doubles. *)
Theorem C172_segment_line_F : forall (L : libm) (k : Z) (m : R) (s : seg F) (p1 p2 : vec F) (o : option point), (-200 <= k <= 200)%Z -> m <= / 32768 ->
  within k (s_origin s) -> within k (s_terminal s) -> within k p1 -> within k p2 ->
  meets k m (fpt (s_origin s)) (fpt (s_terminal s)) (fpt p1) (fpt p2) o ->
  exists l v, @Line2D_init F (NumF L) [VVec p1; VVec p2] [] = Ok l /\ @Segment2D_intersection F (NumF L) s [VLine l] = Ok v /\ answers m v o.
Proof.
  intros L k m s p1 p2 o Hk Hm WA WB W1 W2 C. destruct (seg_line_core L k m s p1 p2 o Hk Hm WA WB W1 W2 C) as (v & E & A & _).
  eexists. exists v. split; [reflexivity|]. split; [exact E|exact A].
Qed.

(** ** A triangle and a line *)
Lemma tri_any_core (L : libm) (k : Z) (m : R) (t : triangle F) (l : line F) (oab obc oca : option point) : (-200 <= k <= 200)%Z ->
  let a := t_a t in let b := t_b t in let c := t_c t in
  let cut p q := @Segment2D_intersection_line F (NumF L) (@Segment2D_of_points F p q) l in
  (exists v, cut a b = Ok v /\ answers m v oab /\ (oab <> None -> within (k + 1) v)) -> (exists v, cut b c = Ok v /\ answers m v obc /\ (obc <> None -> within (k + 1) v)) ->
  (exists v, cut c a = Ok v /\ answers m v oca /\ (oca <> None -> within (k + 1) v)) ->
  let two p q r := exists n v w, r = Ok (mkTriSol n v w) /\ reports m v p /\ reports m w q /\ (n = 2%nat \/ n = 1%nat /\ weakly_near v w) in
  let one p r := exists v w, r = Ok (mkTriSol 1 v w) /\ reports m v p in
  let res := @Triangle2D_intersection F (NumF L) t (VLine l) in
  match oab, obc, oca with
  | Some _, Some _, _ => res = Raise IndexError
  | Some p, None, Some q | None, Some p, Some q => two p q res
  | Some p, None, None | None, Some p, None | None, None, Some p => one p res
  | None, None, None => exists v w, res = Ok (mkTriSol 0 v w)
  end.
Proof.
  intros Hk a b c cut (v1 & E1 & A1 & B1) (v2 & E2 & A2 & B2) (v3 & E3 & A3 & B3) two one res. unfold cut in E1, E2, E3. clear cut.
  assert (DD : forall (v w : vec F), within (k + 1) v -> within (k + 1) w ->
    let tt := @nltb F (NumF L) (@nabs F (NumF L) (@nsub F (NumF L) (vx v) (vx w))) (@EPSILON F (NumF L)) && @nltb F (NumF L) (@nabs F (NumF L) (@nsub F (NumF L) (vy v) (vy w))) (@EPSILON F (NumF L)) in
    tt = true -> weakly_near v w).
  { intros v w (X1 & X2 & X3 & X4) (Y1 & Y2 & Y3 & Y4) tt T. apply andb_true_iff in T. destruct T as [T5 T6]. split; eapply (weak_test L _ _ (k + 1)); try eassumption; try lia; split; assumption. }
  unfold res. cbn [Triangle2D_intersection]. unfold Triangle2D_intersection_line, tsol_side. fold a b c. rewrite E1, E2, E3. cbn [bind tsol_store].
  destruct oab as [q1|]; destruct obc as [q2|]; destruct oca as [q3|]; cbn [answers] in A1, A2, A3;
    repeat match goal with A : reports _ _ _ |- _ => let X := fresh "X" in pose proof (proj1 A) as X; revert A; rewrite ?X end; intros; rewrite ?A1, ?A2, ?A3;
    cbn [Nat.ltb Nat.leb andb bind tsol_store Nat.eqb];
    repeat match goal with X : v_valid ?v = _ |- context [v_valid ?v] => rewrite X; cbn [Nat.ltb Nat.leb andb bind tsol_store Nat.eqb] end.
  all: try reflexivity.
  - unfold two. do 3 eexists. split; [reflexivity|]. split; [assumption|]. split; [assumption|]. match goal with |- (if ?b then _ else _) = _ \/ _ => destruct b eqn:EB end; [right; split; [reflexivity|apply DD; [apply B1; discriminate|apply B3; discriminate|exact EB]]|left; reflexivity].
  - unfold one. do 2 eexists. split; [reflexivity|assumption].
  - unfold two. do 3 eexists. split; [reflexivity|]. split; [assumption|]. split; [assumption|]. match goal with |- (if ?b then _ else _) = _ \/ _ => destruct b eqn:EB end; [right; split; [reflexivity|apply DD; [apply B2; discriminate|apply B3; discriminate|exact EB]]|left; reflexivity].
  - unfold one. do 2 eexists. split; [reflexivity|assumption].
  - unfold one. do 2 eexists. split; [reflexivity|assumption].
  - do 2 eexists. reflexivity.
Qed.
(** Triangle2D.intersection(line) in doubles: if the line meets the first two sides,
    it raises IndexError; otherwise it counts and lists the meeting points in the
    order of the sides ab, bc, ca, and counts two points closer than 1e-6 as one. *)
Theorem C172_triangle_line_F : forall (L : libm) (k : Z) (m : R) (t : triangle F) (p1 p2 : vec F) (oab obc oca : option point), (-200 <= k <= 200)%Z -> m <= / 32768 ->
  let a := t_a t in let b := t_b t in let c := t_c t in within k a -> within k b -> within k c -> within k p1 -> within k p2 ->
  meets k m (fpt a) (fpt b) (fpt p1) (fpt p2) oab -> meets k m (fpt b) (fpt c) (fpt p1) (fpt p2) obc -> meets k m (fpt c) (fpt a) (fpt p1) (fpt p2) oca ->
  let two p q r := exists n v w, r = Ok (mkTriSol n v w) /\ reports m v p /\ reports m w q /\ (n = 2%nat \/ n = 1%nat /\ weakly_near v w) in
  let one p r := exists v w, r = Ok (mkTriSol 1 v w) /\ reports m v p in
  let res := @Triangle2D_intersection F (NumF L) t (VLine (@Line2D_of_points F (NumF L) p1 p2)) in
  match oab, obc, oca with
  | Some _, Some _, _ => res = Raise IndexError
  | Some p, None, Some q | None, Some p, Some q => two p q res
  | Some p, None, None | None, Some p, None | None, None, Some p => one p res
  | None, None, None => exists v w, res = Ok (mkTriSol 0 v w)
  end.
Proof.
  intros L k m t p1 p2 oab obc oca Hk Hm a b c WA WB WC W1 W2 Cab Cbc Cca two one res.
  apply (tri_any_core L k m t (@Line2D_of_points F (NumF L) p1 p2) oab obc oca Hk).
  - exact (seg_line_core L k m (@Segment2D_of_points F a b) p1 p2 oab Hk Hm WA WB W1 W2 Cab).
  - exact (seg_line_core L k m (@Segment2D_of_points F b c) p1 p2 obc Hk Hm WB WC W1 W2 Cbc).
  - exact (seg_line_core L k m (@Segment2D_of_points F c a) p1 p2 oca Hk Hm WC WA W1 W2 Cca).
Qed.
(** The line y = 1 misses the side ab of the triangle (0,0), (4,0), (0,4) and meets the other two. *)
Example C172_nonvacuous : let m := / 65536 in let a := fv 0 0 in let b := fv 4 0 in let c := fv 0 4 in let p1 := fv (-1) 1 in let p2 := fv 5 1 in
  m <= / 32768 /\ within 3 a /\ within 3 b /\ within 3 c /\ within 3 p1 /\ within 3 p2 /\
  meets 3 m (fpt a) (fpt b) (fpt p1) (fpt p2) None /\ meets 3 m (fpt b) (fpt c) (fpt p1) (fpt p2) (Some (3, 1)) /\ meets 3 m (fpt c) (fpt a) (fpt p1) (fpt p2) (Some (0, 1)).
Proof.
  cbv zeta. split; [lra|]. do 5 (split; [apply within_fv; lia|]). rewrite !fpt_fv by lia.
  unfold meets, cross, psub, px, py. cbn [fst snd].
  assert (D2 : Rabs ((0 - 4) * (1 - 1) - (4 - 0) * (5 - -1)) = 24) by (rewrite Rabs_left; lra).
  assert (D3 : Rabs ((0 - 0) * (1 - 1) - (0 - 4) * (5 - -1)) = 24) by (rewrite Rabs_pos_eq; lra).
  assert (D1 : Rabs ((4 - 0) * (1 - 1) - (0 - 0) * (5 - -1)) = 0) by (replace ((4 - 0) * (1 - 1) - (0 - 0) * (5 - -1)) with 0 by ring; apply Rabs_R0).
  rewrite D1, D2, D3. change (bpow radix2 (2 * 3 - 45)) with (/ 549755813888). change (bpow radix2 (2 * 3 - 49)) with (/ 8796093022208). change (bpow radix2 (3 * 3 - 45)) with (/ 68719476736).
  split; [left; lra|]. split.
  - split; [exists (1 / 4); split; [lra|unfold lerp, px, py; cbn [fst snd]; f_equal; lra]|]. split; [exists (2 / 3); unfold lerp, px, py; cbn [fst snd]; f_equal; lra|].
    split; [unfold clear_of_ends, px, py; cbn [fst snd]; split; right; split; try (rewrite Rabs_pos_eq by lra; lra); rewrite Rabs_left by lra; lra|]. lra.
  - split; [exists (3 / 4); split; [lra|unfold lerp, px, py; cbn [fst snd]; f_equal; lra]|]. split; [exists (1 / 6); unfold lerp, px, py; cbn [fst snd]; f_equal; lra|].
    split; [unfold clear_of_ends, px, py; cbn [fst snd]; split; [left; reflexivity|right]; split; [rewrite Rabs_left by lra; lra|rewrite Rabs_pos_eq by lra; lra]|]. lra.
Qed.
