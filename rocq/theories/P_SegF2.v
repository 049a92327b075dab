(** * P_SegF2: points on segments and segments that cross, in doubles (C149) *)
From Coq Require Import ZArith List Bool String Reals Lra Lia Psatz.
From Flocq Require Import Core BinarySingleNaN.
From Verif Require Import Base Types NumR NumF R_Tac Spec Spec2 Abs M_Angle M_Vector M_Line M_Triangle M_Segment
  L_Angle P_Vector P_Line L_Float P_Float P_Robust P_Hull2 P_VecF P_TrigF P_LineF P_MatF P_SoccerF.
Import ListNotations.
Local Open Scope R_scope.

Lemma calc_error_F L : is_finite (@CALC_ERROR F (NumF L)) = true /\ 9999999 / 10000000000000000 <= B2R (@CALC_ERROR F (NumF L)) <= 10000001 / 10000000000000000.
Proof. split; [vm_compute; reflexivity|vm_compute; lra]. Qed.

(** one coordinate of contains(): the test (v-a)(v-b) <= 1e-9 *)
Definition lowT : R := 999999 / 1000000000000000.
Definition highT : R := 1000001 / 1000000000000000.
Lemma coord_test L j (v a b : F) : (-400 <= j <= 400)%Z -> fbound j v -> fbound j a -> fbound j b ->
  let P := (B2R v - B2R a) * (B2R v - B2R b) in
  let r := @nleb F (NumF L) (@nmul F (NumF L) (@nsub F (NumF L) v a) (@nsub F (NumF L) v b)) (@CALC_ERROR F (NumF L)) in
  (P <= lowT -> r = true) /\ (highT <= P -> r = false).
Proof.
  intros Hj V A B P r. cbn [nleb nmul nsub NumF] in r.
  destruct (calc_error_F L) as [C1 C2]. set (ce := @CALC_ERROR F (NumF L)) in *.
  assert (X := fval_sub j j _ _ _ _ ltac:(lia) ltac:(lia) (fval_fb _ _ V) (fval_fb _ _ A)). assert (Y := fval_sub j j _ _ _ _ ltac:(lia) ltac:(lia) (fval_fb _ _ V) (fval_fb _ _ B)).
  assert (Z := fval_mul (j + 1) (j + 1) _ _ _ _ ltac:(lia) X Y). destruct Z as (Z1 & Z2 & _).
  assert (ER : r = Rle_bool (rnd64 (rnd64 (B2R v - B2R a) * rnd64 (B2R v - B2R b))) (B2R ce)) by (unfold r; rewrite leb_F by assumption; now rewrite Z2). clearbody r. subst r.
  assert (SX := rnd_sum (B2R v) (- B2R a) (fmt_F v) (generic_format_opp _ _ _ (fmt_F a))). assert (SY := rnd_sum (B2R v) (- B2R b) (fmt_F v) (generic_format_opp _ _ _ (fmt_F b))).
  fold (B2R v - B2R a) in SX. fold (B2R v - B2R b) in SY. change ((B2R v - B2R a) * (B2R v - B2R b)) with P. set (x := B2R v - B2R a) in *. set (y := B2R v - B2R b) in *.
  assert (R0 : rnd64 0 = 0) by (apply rnd_id, generic_format_0). assert (UU : u = / 9007199254740992) by reflexivity.
  set (X' := rnd64 x) in *. set (Y' := rnd64 y) in *. set (z := X' * Y').
  (* the exact product of the rounded differences is close to P *)
  assert (ZP : Rabs (z - P) <= / 2251799813685248 * Rabs P).
  { unfold z, P. replace (X' * Y' - x * y) with ((X' - x) * y + x * (Y' - y) + (X' - x) * (Y' - y)) by ring. rewrite Rabs_mult. set (ax := Rabs x) in *. set (ay := Rabs y) in *.
    assert (0 <= ax) by apply Rabs_pos. assert (0 <= ay) by apply Rabs_pos. assert (HXY : 0 <= ax * ay) by (apply Rmult_le_pos; assumption).
    eapply Rle_trans; [apply Rabs_triang|]. eapply Rle_trans; [apply Rplus_le_compat_r, Rabs_triang|]. rewrite !Rabs_mult. fold ax ay.
    assert (K1 : Rabs (X' - x) * ay <= u * ax * ay) by (apply Rmult_le_compat_r; assumption). assert (K2 : ax * Rabs (Y' - y) <= ax * (u * ay)) by (apply Rmult_le_compat_l; assumption).
    assert (K3 : Rabs (X' - x) * Rabs (Y' - y) <= (u * ax) * (u * ay)) by (apply Rmult_le_compat; try apply Rabs_pos; assumption).
    replace (u * ax * ay) with (u * (ax * ay)) in K1 by ring. replace (ax * (u * ay)) with (u * (ax * ay)) in K2 by ring. replace (u * ax * (u * ay)) with (u * u * (ax * ay)) in K3 by ring. set (w := ax * ay) in *. rewrite UU in *. nra. }
  pose proof (rnd_rel z) as RZ. assert (TN : bpow radix2 (-1075) <= / 1000000000000000000) by (apply Rle_trans with (bpow radix2 (-60)); [apply bpow_le; lia|change (bpow radix2 (-60)) with (/ 1152921504606846976); lra]).
  unfold lowT, highT. split; intros HP; [apply Rle_bool_true|apply Rle_bool_false].
  - destruct (Rle_lt_dec P 0) as [N|N].
    + assert (ZN : z <= 0).
      { assert (XS : 0 <= x -> 0 <= X') by (intros; unfold X'; rewrite <- R0; now apply rnd_le). assert (XN : x <= 0 -> X' <= 0) by (intros; unfold X'; rewrite <- R0; now apply rnd_le).
        assert (YS : 0 <= y -> 0 <= Y') by (intros; unfold Y'; rewrite <- R0; now apply rnd_le). assert (YN : y <= 0 -> Y' <= 0) by (intros; unfold Y'; rewrite <- R0; now apply rnd_le).
        unfold z. destruct (Rle_lt_dec 0 x) as [Q1|Q1]; destruct (Rle_lt_dec 0 y) as [Q2|Q2].
        - destruct (Req_dec x 0) as [E|E]; [assert (X' = 0) by (unfold X'; rewrite E; exact R0); nra|]. destruct (Req_dec y 0) as [E'|E']; [assert (Y' = 0) by (unfold Y'; rewrite E'; exact R0); nra|]. assert (0 < x * y) by (apply Rmult_lt_0_compat; lra). unfold P in N. lra.
        - specialize (XS Q1). specialize (YN (Rlt_le _ _ Q2)). nra.
        - specialize (YS Q2). specialize (XN (Rlt_le _ _ Q1)). nra.
        - assert (0 < x * y) by nra. unfold P in N. lra. }
      apply Rle_trans with 0; [rewrite <- R0; now apply rnd_le|lra].
    + rewrite (Rabs_pos_eq P) in ZP by lra. apply Rabs_le_inv in ZP. assert (0 < z) by lra. rewrite (Rabs_pos_eq z) in RZ by lra. apply Rabs_le_inv in RZ. rewrite UU in RZ. lra.
  - rewrite (Rabs_pos_eq P) in ZP by lra. apply Rabs_le_inv in ZP. assert (0 < z) by lra. rewrite (Rabs_pos_eq z) in RZ by lra. apply Rabs_le_inv in RZ. rewrite UU in RZ. lra.
Qed.

(** C149: contains() in doubles: the bounding box, blurred by 1e-9 in the product *)
Definition inside_box (p a b : point) : Prop := Rmin (px a) (px b) <= px p <= Rmax (px a) (px b) /\ Rmin (py a) (py b) <= py p <= Rmax (py a) (py b).
Definition beyond_box (m : R) (p a b : point) : Prop :=
  Rmax (px a) (px b) + m <= px p \/ px p <= Rmin (px a) (px b) - m \/ Rmax (py a) (py b) + m <= py p \/ py p <= Rmin (py a) (py b) - m.
Lemma between_neg p a b : Rmin a b <= p <= Rmax a b -> (p - a) * (p - b) <= lowT.
Proof. intros H. unfold lowT. apply Rle_trans with 0; [|lra]. destruct (Rle_lt_dec a b) as [C|C]; [rewrite Rmin_left, Rmax_right in H by lra|rewrite Rmin_right, Rmax_left in H by lra]; nra. Qed.
Lemma beyond_pos p a b : Rmax a b + / 31000 <= p \/ p <= Rmin a b - / 31000 -> highT <= (p - a) * (p - b).
Proof.
  intros H. unfold highT. pose proof (Rmax_l a b). pose proof (Rmax_r a b). pose proof (Rmin_l a b). pose proof (Rmin_r a b).
  apply Rle_trans with (/ 31000 * / 31000); [lra|]. destruct H as [H|H]; [apply Rmult_le_compat; lra|]. replace ((p - a) * (p - b)) with ((a - p) * (b - p)) by ring. apply Rmult_le_compat; lra.
Qed.
Lemma contains_F L j (s : seg F) (p : vec F) : (-400 <= j <= 400)%Z -> within j (s_origin s) -> within j (s_terminal s) -> within j p ->
  let o := fpt (s_origin s) in let t := fpt (s_terminal s) in let q := fpt p in
  ((px q - px o) * (px q - px t) <= lowT -> (py q - py o) * (py q - py t) <= lowT -> @Segment2D_contains F (NumF L) s p = true) /\
  (highT <= (px q - px o) * (px q - px t) \/ highT <= (py q - py o) * (py q - py t) -> @Segment2D_contains F (NumF L) s p = false).
Proof.
  intros Hj (O1 & O2 & O3 & O4) (T1 & T2 & T3 & T4) (P1 & P2 & P3 & P4) o t q. unfold Segment2D_contains.
  destruct (coord_test L j (vx p) (vx (s_origin s)) (vx (s_terminal s)) Hj (conj P1 P3) (conj O1 O3) (conj T1 T3)) as [X1 X2].
  destruct (coord_test L j (vy p) (vy (s_origin s)) (vy (s_terminal s)) Hj (conj P2 P4) (conj O2 O4) (conj T2 T4)) as [Y1 Y2]. cbv zeta in X1, X2, Y1, Y2.
  split; [intros A B; rewrite X1, Y1 by assumption; reflexivity|]. intros [A|A]; [rewrite X2 by assumption; reflexivity|rewrite Y2 by assumption; apply andb_false_r].
Qed.
Theorem C149_contains_F : forall (L : libm) (j : Z) (s : seg F) (p : vec F), (-400 <= j <= 400)%Z -> within j (s_origin s) -> within j (s_terminal s) -> within j p ->
  (inside_box (fpt p) (fpt (s_origin s)) (fpt (s_terminal s)) -> @Segment2D_contains F (NumF L) s p = true) /\
  (beyond_box (/ 31000) (fpt p) (fpt (s_origin s)) (fpt (s_terminal s)) -> @Segment2D_contains F (NumF L) s p = false).
Proof.
  intros L j s p Hj O T P. destruct (contains_F L j s p Hj O T P) as [C1 C2]. split.
  - intros [H1 H2]. apply C1; now apply between_neg.
  - intros H. apply C2. destruct H as [H|[H|[H|H]]]; [left|left|right|right]; apply beyond_pos; tauto.
Qed.

(** C149: two segments whose lines meet in [q] *)
Definition clear_of_ends (E : R) (a b q : point) : Prop :=
  (px a = px b \/ (E <= Rabs (px q - px a) /\ E <= Rabs (px q - px b))) /\ (py a = py b \/ (E <= Rabs (py q - py a) /\ E <= Rabs (py q - py b))).
Lemma on_seg_between a b q : on_seg a b q -> inside_box q a b.
Proof.
  intros (t & Ht & ->). unfold inside_box, lerp, psub, px, py. cbn [fst snd]. split.
  - destruct (Rle_lt_dec (fst a) (fst b)) as [C|C]; [rewrite Rmin_left, Rmax_right by lra|rewrite Rmin_right, Rmax_left by lra]; nra.
  - destruct (Rle_lt_dec (snd a) (snd b)) as [C|C]; [rewrite Rmin_left, Rmax_right by lra|rewrite Rmin_right, Rmax_left by lra]; nra.
Qed.
Lemma clear_coord E v q a b : 0 <= E <= / 32768 -> Rabs (v - q) <= E -> Rmin a b <= q <= Rmax a b -> (a = b \/ (E <= Rabs (q - a) /\ E <= Rabs (q - b))) -> (v - a) * (v - b) <= lowT.
Proof.
  intros HE HV HB [-> | [A B]].
  - rewrite Rmin_left, Rmax_left in HB by lra. assert (q = b) by lra. subst q. apply Rabs_le_inv in HV. unfold lowT. assert ((v - b) * (v - b) <= / 32768 * / 32768) by nra. lra.
  - apply Rle_trans with 0; [|unfold lowT; lra]. apply Rabs_le_inv in HV. destruct (Rle_lt_dec a b) as [C|C]; [rewrite Rmin_left, Rmax_right in HB by lra; rewrite Rabs_pos_eq in A by lra; rewrite Rabs_left1 in B by lra|rewrite Rmin_right, Rmax_left in HB by lra; rewrite Rabs_left1 in A by lra; rewrite Rabs_pos_eq in B by lra]; nra.
Qed.
Lemma box_bound k a b q : within k a -> within k b -> inside_box q (fpt a) (fpt b) -> Rabs (px q) <= bpow radix2 k /\ Rabs (py q) <= bpow radix2 k.
Proof.
  intros (_ & _ & A1 & A2) (_ & _ & B1 & B2) [[H1 H2] [H3 H4]]. unfold fpt, px, py in *. cbn [fst snd] in *. apply Rabs_le_inv in A1, A2, B1, B2.
  assert (M1 := Rmin_glb _ _ _ (proj1 A1) (proj1 B1)). assert (M2 := Rmin_glb _ _ _ (proj1 A2) (proj1 B2)). assert (M3 := Rmax_lub _ _ _ (proj2 A1) (proj2 B1)). assert (M4 := Rmax_lub _ _ _ (proj2 A2) (proj2 B2)).
  split; apply Rabs_le; lra.
Qed.
Theorem C149_hit_F : forall (L : libm) (k : Z) (s o : seg F) (q : point), (-200 <= k <= 200)%Z ->
  within k (s_origin s) -> within k (s_terminal s) -> within k (s_origin o) -> within k (s_terminal o) ->
  let a := fpt (s_origin s) in let b := fpt (s_terminal s) in let c := fpt (s_origin o) in let d := fpt (s_terminal o) in
  let D := cross (psub b a) (psub d c) in bpow radix2 (2 * k - 45) <= Rabs D -> 2 / 999999 <= Rabs D ->
  let E := bpow radix2 (3 * k - 45) / Rabs D in E <= / 32768 ->
  on_seg a b q -> on_seg c d q -> clear_of_ends E a b q -> clear_of_ends E c d q ->
  exists v, @Segment2D_intersection F (NumF L) s [VSeg o; VBool true] = Ok v /\ v_valid v = true /\ is_finite (vx v) = true /\ is_finite (vy v) = true /\
    Rabs (px (fpt v) - px q) <= E /\ Rabs (py (fpt v) - py q) <= E /\
    (let far x y z := Rabs (side x y z) >= bpow radix2 (2 * k - 48) in far a b c -> far a b d -> far c d a -> far c d b ->
       @Segment2D_intersection F (NumF L) s [VSeg o] = Ok v).
Proof.
  intros L k s o q Hk W1 W2 W3 W4 a b c d D D1 D2 E HE O1 O2 K1 K2.
  assert (I1 := on_seg_between _ _ _ O1). assert (I2 := on_seg_between _ _ _ O2). destruct (box_bound k _ _ q W1 W2 I1) as [Q1 Q2].
  assert (L1 : on_line2 a b q) by (destruct O1 as (t & _ & H); now exists t). assert (L2 : on_line2 c d q) by (destruct O2 as (t & _ & H); now exists t).
  destruct (C144_intersection_F L k k _ _ _ _ q Hk ltac:(lia) W1 W2 W3 W4 D1 D2 L1 L2 Q1 Q2) as (l1 & l2 & v & E1 & E2 & V1 & V2 & V3 & V4 & V5 & V6).
  injection E1 as <-. injection E2 as <-. replace (k + 2 * k - 45)%Z with (3 * k - 45)%Z in V5, V6 by lia. fold a b c d D in V5, V6. fold E in V5, V6.
  assert (PE : 0 <= E) by (unfold E; apply Rmult_le_pos; [apply bpow_ge_0|]; pose proof (bpow_gt_0 radix2 (2 * k - 45)); left; apply Rinv_0_lt_compat; lra).
  assert (EK : E <= bpow radix2 k).
  { unfold E. apply Rmult_le_reg_r with (Rabs D); [pose proof (bpow_gt_0 radix2 (2 * k - 45)); lra|]. unfold Rdiv. rewrite Rmult_assoc, Rinv_l, Rmult_1_r by (pose proof (bpow_gt_0 radix2 (2 * k - 45)); lra).
    replace (3 * k - 45)%Z with (k + (2 * k - 45))%Z by lia. rewrite bpow_plus. apply Rmult_le_compat_l; [apply bpow_ge_0|exact D1]. }
  assert (UP : forall w, within k w -> within (k + 1) w) by (intros w (A1 & A2 & A3 & A4); assert (bpow radix2 k <= bpow radix2 (k + 1)) by (apply bpow_le; lia); repeat split; try assumption; lra).
  assert (WV : within (k + 1) v).
  { split; [exact V3|]. split; [exact V4|]. replace (k + 1)%Z with (1 + k)%Z by lia. rewrite bp2. unfold fpt, px, py in V5, V6. cbn [fst snd] in V5, V6. unfold px, py in Q1, Q2. split; [apply Rabs_le; apply Rabs_le_inv in V5, Q1; lra|apply Rabs_le; apply Rabs_le_inv in V6, Q2; lra]. }
  assert (C1 : @Segment2D_contains F (NumF L) s v = true).
  { destruct (contains_F L (k + 1) s v ltac:(lia) (UP _ W1) (UP _ W2) WV) as [C _]. destruct I1 as [J1 J2]. destruct K1 as [G1 G2]. apply C; [apply (clear_coord E _ (px q))|apply (clear_coord E _ (py q))]; try assumption; split; assumption. }
  assert (C2 : @Segment2D_contains F (NumF L) o v = true).
  { destruct (contains_F L (k + 1) o v ltac:(lia) (UP _ W3) (UP _ W4) WV) as [C _]. destruct I2 as [J1 J2]. destruct K2 as [G1 G2]. apply C; [apply (clear_coord E _ (px q))|apply (clear_coord E _ (py q))]; try assumption; split; assumption. }
  exists v. cbn [Segment2D_intersection]. unfold Segment2D_intersection_seg, Segment2D_line. rewrite V1. cbn [bind]. rewrite V2, C1, C2. cbn [negb orb andb].
  split; [reflexivity|]. do 5 (split; [first [reflexivity|exact V2|exact V3|exact V4|exact V5|exact V6]|]). intros F1 F2 F3 F4.
  destruct (C116_exist_intersection_F L k s o ltac:(lia) W1 W2 W3 W4 F1 F2 F3 F4) as (r & _ & R2 & R3). rewrite R2.
  assert (RT : r = true) by (apply R3; exists q; split; assumption). now rewrite RT.
Qed.
Theorem C149_miss_F : forall (L : libm) (k n : Z) (s o : seg F) (q : point) (e : list (val F)), (-200 <= k <= 200)%Z -> (k <= n <= 300)%Z ->
  within k (s_origin s) -> within k (s_terminal s) -> within k (s_origin o) -> within k (s_terminal o) ->
  let a := fpt (s_origin s) in let b := fpt (s_terminal s) in let c := fpt (s_origin o) in let d := fpt (s_terminal o) in
  let D := cross (psub b a) (psub d c) in bpow radix2 (2 * k - 45) <= Rabs D -> 2 / 999999 <= Rabs D ->
  let E := bpow radix2 (n + 2 * k - 45) / Rabs D in
  on_line2 a b q -> on_line2 c d q -> Rabs (px q) <= bpow radix2 n -> Rabs (py q) <= bpow radix2 n -> beyond_box (E + / 31000) q a b \/ beyond_box (E + / 31000) q c d ->
  e = [] \/ (exists w, e = [VBool w]) -> @Segment2D_intersection F (NumF L) s (VSeg o :: e) = Ok (@Vector2D_invalid F (NumF L)).
Proof.
  intros L k n s o q e Hk Hn W1 W2 W3 W4 a b c d D D1 D2 E L1 L2 Q1 Q2 HB He.
  destruct (C144_intersection_F L k n _ _ _ _ q Hk ltac:(lia) W1 W2 W3 W4 D1 D2 L1 L2 Q1 Q2) as (l1 & l2 & v & E1 & E2 & V1 & V2 & V3 & V4 & V5 & V6).
  injection E1 as <-. injection E2 as <-. fold a b c d D in V5, V6. fold E in V5, V6.
  assert (PD : 0 < Rabs D) by lra. assert (EK : E <= bpow radix2 n).
  { unfold E. apply Rmult_le_reg_r with (Rabs D); [exact PD|]. unfold Rdiv. rewrite Rmult_assoc, Rinv_l, Rmult_1_r by lra. replace (n + 2 * k - 45)%Z with (n + (2 * k - 45))%Z by lia. rewrite bpow_plus. apply Rmult_le_compat_l; [apply bpow_ge_0|exact D1]. }
  assert (UP : forall w, within k w -> within (n + 1) w) by (intros w (A1 & A2 & A3 & A4); assert (bpow radix2 k <= bpow radix2 (n + 1)) by (apply bpow_le; lia); repeat split; try assumption; lra).
  assert (WV : within (n + 1) v).
  { split; [exact V3|]. split; [exact V4|]. replace (n + 1)%Z with (1 + n)%Z by lia. rewrite bp2. unfold fpt, px, py in V5, V6. cbn [fst snd] in V5, V6. unfold px, py in Q1, Q2. split; [apply Rabs_le; apply Rabs_le_inv in V5, Q1; lra|apply Rabs_le; apply Rabs_le_inv in V6, Q2; lra]. }
  apply Rabs_le_inv in V5, V6.
  assert (G : forall x y, beyond_box (E + / 31000) q x y -> beyond_box (/ 31000) (fpt v) x y) by (intros x y H; unfold beyond_box in *; lra).
  assert (CF : @Segment2D_contains F (NumF L) s v = false \/ @Segment2D_contains F (NumF L) o v = false).
  { destruct HB as [HB|HB]; [left; apply (C149_contains_F L (n + 1) s v ltac:(lia) (UP _ W1) (UP _ W2) WV)|right; apply (C149_contains_F L (n + 1) o v ltac:(lia) (UP _ W3) (UP _ W4) WV)]; now apply G. }
  assert (H : forall w, @Segment2D_intersection_seg F (NumF L) s o w = Ok (@Vector2D_invalid F (NumF L))).
  { intros w. unfold Segment2D_intersection_seg, Segment2D_line. rewrite V1. cbn [bind]. rewrite V2. destruct CF as [-> | ->]; cbn [negb orb]; rewrite ?orb_true_r; reflexivity. }
  destruct He as [-> | [w ->]]; cbn [Segment2D_intersection]; apply H.
Qed.
Lemma within_fvk k x y : (0 <= k <= 50)%Z -> (Z.abs x <= 2 ^ k)%Z -> (Z.abs y <= 2 ^ k)%Z -> within k (fv x y).
Proof. intros K A B. destruct (fb_Z k x A K), (fb_Z k y B K). unfold within, fv; cbn [vx vy]. tauto. Qed.
Example C149_nonvacuous : let s := mkSeg (fv 0 0) (fv 4 4) in let s' := mkSeg (fv 0 0) (fv 1 1) in let o := mkSeg (fv 0 4) (fv 4 0) in let q := (2, 2) in
  let D := cross (psub (fpt (fv 4 4)) (fpt (fv 0 0))) (psub (fpt (fv 4 0)) (fpt (fv 0 4))) in let D' := cross (psub (fpt (fv 1 1)) (fpt (fv 0 0))) (psub (fpt (fv 4 0)) (fpt (fv 0 4))) in
  let E := bpow radix2 (3 * 2 - 45) / Rabs D in let E' := bpow radix2 (3 * 2 - 45) / Rabs D' in
  (within 2 (fv 0 0) /\ within 2 (fv 4 4) /\ within 2 (fv 0 4) /\ within 2 (fv 4 0) /\ within 2 (fv 1 1)) /\
  (bpow radix2 (2 * 2 - 45) <= Rabs D /\ 2 / 999999 <= Rabs D /\ E <= / 32768 /\ on_seg (fpt (fv 0 0)) (fpt (fv 4 4)) q /\ on_seg (fpt (fv 0 4)) (fpt (fv 4 0)) q /\ clear_of_ends E (fpt (fv 0 0)) (fpt (fv 4 4)) q /\ clear_of_ends E (fpt (fv 0 4)) (fpt (fv 4 0)) q) /\
  (bpow radix2 (2 * 2 - 45) <= Rabs D' /\ 2 / 999999 <= Rabs D' /\ on_line2 (fpt (fv 0 0)) (fpt (fv 1 1)) q /\ beyond_box (E' + / 31000) q (fpt (fv 0 0)) (fpt (fv 1 1))).
Proof.
  cbv zeta. rewrite !fpt_fv by (cbn; lia). unfold cross, psub, on_seg, on_line2, lerp, clear_of_ends, beyond_box, px, py. cbn [fst snd]. change (bpow radix2 (3 * 2 - 45)) with (/ 549755813888). change (bpow radix2 (2 * 2 - 45)) with (/ 2199023255552).
  replace (Rabs ((4 - 0) * (0 - 4) - (4 - 0) * (4 - 0))) with 32 by (rewrite Rabs_left; lra). replace (Rabs ((1 - 0) * (0 - 4) - (1 - 0) * (4 - 0))) with 8 by (rewrite Rabs_left; lra).
  replace (Rabs (2 - 0)) with 2 by (rewrite Rabs_pos_eq; lra). replace (Rabs (2 - 4)) with 2 by (rewrite Rabs_left; lra). rewrite (Rmax_right 0 1), (Rmin_left 0 1) by lra.
  split; [repeat split; apply within_fvk; lia|]. split.
  - split; [lra|]. split; [lra|]. split; [lra|]. split; [exists (/ 2); split; [lra|f_equal; lra]|]. split; [exists (/ 2); split; [lra|f_equal; lra]|]. lra.
  - split; [lra|]. split; [lra|]. split; [exists 2; f_equal; lra|]. lra.
Qed.
