(** * P_HullRobust: gift wrapping on arbitrary doubles (C123)

    No grid: coordinates are any doubles of magnitude at most 2^k.  The only thing
    gift wrapping asks of arithmetic is the sign of areas and whether they exceed
    EPSILON, so a margin on the exact areas is enough. *)
From Coq Require Import ZArith List Bool String Reals Lra Lia Psatz Permutation.
From Flocq Require Import Core BinarySingleNaN.
From Verif Require Import Base Types NumR NumF R_Tac Spec Spec2 Abs M_Angle M_Vector M_Line M_Triangle M_Segment M_Polygon
  L_Angle P_Vector P_Line L_Seg P_Segment P_Triangle P_Polygon P_Polygon2 M_Hull P_Hull P_Hull2 L_Float P_Float P_Grid P_Grid2 P_HullF P_Robust.
Import ListNotations.
Local Open Scope R_scope.

Lemma eps_tight L : is_finite (@EPSILON F (NumF L)) = true /\ B2R (@EPSILON F (NumF L)) <= 1 / 999999.
Proof. split; [vm_compute; reflexivity|]. vm_compute. lra. Qed.
Lemma margin_tests L k a b c : (-500 <= k <= 480)%Z -> within k a -> within k b -> within k c ->
  Rabs (side (fpt a) (fpt b) (fpt c)) >= bpow radix2 (2 * k - 49) + 1 / 999999 -> area_tests L a b c.
Proof.
  intros Hk A B C M. destruct (area_close L k a b c Hk A B C) as (E1 & _ & E3).
  change (pt (rvec a)) with (fpt a) in E3. change (pt (rvec b)) with (fpt b) in E3. change (pt (rvec c)) with (fpt c) in E3.
  unfold area_tests. cbv zeta. rewrite area_side. change (pt (rvec a)) with (fpt a). change (pt (rvec b)) with (fpt b). change (pt (rvec c)) with (fpt c).
  revert E1 E3 M. generalize (@double_signed_area_st F (NumF L) a b c). generalize (side (fpt a) (fpt b) (fpt c)). intros S ar E1 E3 M.
  destruct (F_of_Z_exact 0 eq_refl) as [Z1 Z2]. rewrite num0_F. pose proof (eps_tight L) as [P1 P2]. revert P1 P2. generalize (@EPSILON F (NumF L)). intros ep P1 P2.
  cbn [nltb NumF]. rewrite !ltb_F by assumption. rewrite Z1. unfold EPSILON. rnum.
  pose proof (bpow_gt_0 radix2 (2 * k - 49)) as BP. apply Rabs_le_inv in E3.
  destruct (Rle_lt_dec 0 S) as [K|K].
  - rewrite Rabs_pos_eq in M by assumption. rewrite !(Rlt_bool_false _ _) by lra. split; [reflexivity|]. intros _. split; reflexivity.
  - rewrite Rabs_left in M by assumption. rewrite !(Rlt_bool_true _ _) by lra. split; [reflexivity|discriminate].
Qed.

(** ** C123 *)
(** Gift wrapping in doubles: for distinct points of magnitude at most 2^k, every
    three of which span a double area above 2^(2k-49) + 1/999999, it never raises
    and returns the convex hull. *)
Theorem C123_convex_hull_margin_F : forall (L : libm) (k : Z) (pts : list (vec F)) sorter, (-500 <= k <= 480)%Z -> Forall (within k) pts ->
  (3 <= List.length pts)%nat -> NoDup (map fpt pts) ->
  (forall a b c, In a pts -> In b pts -> In c pts -> fpt a <> fpt b -> fpt b <> fpt c -> fpt a <> fpt c ->
     Rabs (side (fpt a) (fpt b) (fpt c)) >= bpow radix2 (2 * k - 49) + 1 / 999999) ->
  exists vs es, @ConvexHull_compute F (NumF L) sorter WRAPPING_METHOD (ConvexHull_init pts) = Ok (mkHull pts vs es false) /\
    (3 <= List.length vs)%nat /\ incl vs pts /\ strictly_convex (map fpt vs) /\
    (forall p, In p pts -> In p vs \/ strictly_inside (map fpt vs) (fpt p)) /\
    es = map (fun e => Segment2D_of_points (fst e) (snd e)) (tl (closed_edges vs)).
Proof.
  intros L k pts sorter Hk W Hn ND M. rewrite Forall_forall in W.
  assert (FV : Forall finv pts) by (apply Forall_forall; intros v Hv; destruct (W v Hv) as (F1 & F2 & _); split; assumption).
  destruct (hull_F L pts sorter FV Hn) as (vs & es & E & L3 & INC & SC & HI & _ & HE).
  - split; [exact ND|]. intros A B C IA IB IC N1 N2 N3.
    apply in_map_iff in IA, IB, IC. destruct IA as (a & <- & IA), IB as (b & <- & IB), IC as (c & <- & IC).
    specialize (M a b c IA IB IC N1 N2 N3). pose proof (bpow_gt_0 radix2 (2 * k - 49)). lra.
  - intros a b c IA IB IC N1 N2 N3. apply (margin_tests L k); auto.
  - exists vs, es. repeat (split; [assumption|]). assumption.
Qed.
Example C123_nonvacuous : let pts := [c116_a; c116_b; c116_p; c116_c] in
  Forall (within 2) pts /\ (3 <= List.length pts)%nat /\ NoDup (map fpt pts) /\
  (forall a b c, In a pts -> In b pts -> In c pts -> fpt a <> fpt b -> fpt b <> fpt c -> fpt a <> fpt c ->
     Rabs (side (fpt a) (fpt b) (fpt c)) >= bpow radix2 (2 * 2 - 49) + 1 / 999999).
Proof.
  intros pts. split; [|split; [cbn; lia|]].
  { unfold pts. repeat (apply Forall_cons || apply Forall_nil); (split; [reflexivity|split; [reflexivity|]]); c116; change (bpow radix2 2) with 4; split; apply Rabs_le; lra. }
  change (2 * 2 - 49)%Z with (-45)%Z. change (bpow radix2 (-45)) with (/ 35184372088832).
  assert (A : fpt c116_a = (7205759403792794 / 72057594037927936, 7205759403792794 / 72057594037927936)) by (unfold fpt; c116; f_equal; lra).
  assert (B : fpt c116_b = (6980579422424269 / 2251799813685248, 7205759403792794 / 36028797018963968)) by (unfold fpt; c116; f_equal; lra).
  assert (C : fpt c116_c = (6305039478318694 / 9007199254740992, 5179139571476070 / 2251799813685248)) by (unfold fpt; c116; f_equal; lra).
  assert (P : fpt c116_p = (5854679515581645 / 4503599627370496, 8106479329266893 / 9007199254740992)) by (unfold fpt; c116; f_equal; lra).
  split.
  - unfold pts. cbn [map]. rewrite A, B, C, P. repeat constructor; cbn; intros K; repeat (destruct K as [K|K]; [injection K; lra|]); exact K.
  - assert (G : forall x, x >= / 35184372088832 + 1/999999 \/ x <= - (/ 35184372088832 + 1/999999) -> Rabs x >= / 35184372088832 + 1/999999) by (intros x; unfold Rabs; destruct Rcase_abs; lra).
    intros a b c IA IB IC. cbn [pts In] in IA, IB, IC.
    destruct IA as [<-|[<-|[<-|[<-|[]]]]], IB as [<-|[<-|[<-|[<-|[]]]]], IC as [<-|[<-|[<-|[<-|[]]]]]; intros N1 N2 N3; try (exfalso; (now apply N1) || (now apply N2) || (now apply N3));
      clear N1 N2 N3; rewrite ?A, ?B, ?C, ?P; apply G; unfold side, cross, psub, px, py; cbn [fst snd]; first [left; lra|right; lra].
Qed.
