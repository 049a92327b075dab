(** * P_DistF: distances between a point and an outline, between segments, and
    the farthest distance, in doubles (C158) *)
From Coq Require Import ZArith List Bool String Reals Lra Lia Psatz.
From Flocq Require Import Core BinarySingleNaN.
From Verif Require Import Base Types NumR NumF R_Tac Spec Spec2 Abs M_Vector M_Triangle M_Segment M_Polygon L_Seg L_Float P_Vector P_Segment P_Polygon P_Polygon2 P_Float P_Robust P_Hull2 P_VecF P_LineF P_SegF P_LenF P_PolyF.
Import ListNotations.
Local Open Scope R_scope.

Lemma seg_min_exists (a b p : point) : exists d, is_min_dist (on_seg a b) p d.
Proof.
  destruct (C32_dist_point_R (mkSeg (mkVec (px a) (py a) true) (mkVec (px b) (py b) true)) (mkVec (px p) (py p) true)) as (d & v & _ & H & _). exists d.
  unfold spts in H. cbn [s_origin s_terminal] in H. unfold pt in H. cbn [vx vy] in H. destruct a, b, p. exact H.
Qed.
Section Outline.
  Context (L : libm) (k : Z) (p : vec F) (lm : R).
  Hypothesis PW : pow_square L. Hypothesis Hk : (-200 <= k <= 200)%Z. Hypothesis WP : within k p. Hypothesis HL : bpow radix2 (k - 45) <= lm.
  Notation E := (bpow radix2 (2 * k - 44) / lm).
  Notation near e d := (is_min_dist (on_seg (fpt (fst e)) (fpt (snd e))) (fpt p) d).
  Definition long_edge (e : vec F * vec F) : Prop := within k (fst e) /\ within k (snd e) /\ lm <= edist (fpt (fst e)) (fpt (snd e)).
  Lemma edge_F (e : vec F * vec F) : long_edge e -> exists r, @Segment2D_dist_point F (NumF L) (Segment2D_of_points (fst e) (snd e)) p = Ok r /\ is_finite r = true /\ forall d, near e d -> Rabs (B2R r - d) <= E.
  Proof.
    intros (W1 & W2 & W3). destruct (seg_min_exists (fpt (fst e)) (fpt (snd e)) (fpt p)) as [d HD].
    destruct (C145_dist_F L k (Segment2D_of_points (fst e) (snd e)) p d PW Hk W1 W2 WP) as (r & R1 & R2 & R3); [exact (Rle_trans _ _ _ HL W3)|exact HD|]. exists r. split; [exact R1|]. split; [exact R2|].
    intros d' HD'. assert (d' = d) as ->. { destruct HD as [(q & Q1 & Q2) Q3], HD' as [(q' & Q1' & Q2') Q3']. specialize (Q3 q' Q1'). specialize (Q3' q Q1). lra. }
    eapply Rle_trans; [exact R3|]. cbn [s_origin s_terminal Segment2D_of_points] in *. assert (0 < bpow radix2 (k - 45)) by apply bpow_gt_0.
    unfold Rdiv. apply Rmult_le_compat_l; [apply bpow_ge_0|]. apply Rinv_le_contravar; [lra|exact W3].
  Qed.
  Lemma loop_F es : forall m, (forall x, m = Some x -> is_finite x = true) -> Forall long_edge es -> (es <> [] \/ m <> None) ->
    exists r, @dist_loop F (NumF L) p es m = Ok (Some r) /\ is_finite r = true /\ (m = Some r \/ exists e, In e es /\ forall d, near e d -> Rabs (B2R r - d) <= E) /\
      (forall x, m = Some x -> B2R r <= B2R x) /\ (forall e d, In e es -> near e d -> B2R r <= d + E).
  Proof.
    induction es as [|e es IH]; intros m FM LE NE.
    - destruct NE as [NE|NE]; [easy|]. destruct m as [x|]; [|easy]. exists x. split; [reflexivity|]. split; [now apply FM|]. split; [now left|]. split; [intros y [= <-]; lra|easy].
    - apply Forall_cons_iff in LE. destruct LE as [E1 LE]. destruct (edge_F e E1) as (r & R1 & R2 & R3). destruct e as [a b]. cbn [dist_loop]. cbn [fst snd] in R1. rewrite R1. cbn [bind].
      assert (UM : exists x, @upd_min F (NumF L) m r = Some x /\ is_finite x = true /\ (m = Some x \/ x = r) /\ B2R x <= B2R r /\ (forall y, m = Some y -> B2R x <= B2R y)).
      { unfold upd_min. destruct m as [y|]; [|exists r; split; [reflexivity|]; split; [exact R2|]; split; [now right|]; split; [lra|easy]].
        cbn [nltb NumF]. rewrite ltb_F by auto. destruct (Rlt_bool_spec (B2R r) (B2R y)).
        - exists r. split; [reflexivity|]. split; [exact R2|]. split; [now right|]. split; [lra|]. intros z [= <-]. lra.
        - exists y. split; [reflexivity|]. split; [auto|]. split; [now left|]. split; [lra|]. intros z [= <-]. lra. }
      destruct UM as (x & UX & FX & CX & BX & MX). rewrite UX.
      destruct (IH (Some x)) as (z & Z1 & Z2 & Z3 & Z4 & Z5); [intros y [= <-]; exact FX|exact LE|right; discriminate|].
      exists z. split; [exact Z1|]. split; [exact Z2|]. specialize (Z4 x eq_refl). split; [|split].
      + destruct Z3 as [[= <-]|(e & I & Z3)]; [|right; exists e; split; [now right|exact Z3]]. destruct CX as [CX| ->]; [now left|]. right. exists (a, b). split; [now left|exact R3].
      + intros y Y. specialize (MX y Y). lra.
      + intros e d [<-|I] N; [|now apply (Z5 e)]. specialize (R3 d N). apply Rabs_le_inv in R3. lra.
  Qed.
End Outline.
(** C158: the distance from the outline of a polygon, all of whose sides are
    at least lm long. *)
Theorem C158_outline_dist_F : forall (L : libm) (k : Z) (vs : list (vec F)) (p : vec F) (lm d : R), pow_square L -> (-200 <= k <= 200)%Z ->
  (2 <= List.length vs)%nat -> Forall (within k) vs -> within k p -> bpow radix2 (k - 45) <= lm ->
  (forall e, In e (closed_edges (map fpt vs)) -> lm <= edist (fst e) (snd e)) -> is_min_dist (on_outline (map fpt vs)) (fpt p) d ->
  exists r, @Polygon2D_dist F (NumF L) vs p false = Ok (Some r) /\ is_finite r = true /\ Rabs (B2R r - d) <= bpow radix2 (2 * k - 44) / lm.
Proof.
  intros L k vs p lm d PW Hk HL WV WP HM LE MD.
  assert (OUT : forall q, on_outline (map fpt vs) q <-> exists e, In e (cyc_pairs vs) /\ on_seg (fpt (fst e)) (fpt (snd e)) q).
  { intros q. unfold on_outline. rewrite closed_edges_map, <- cyc_pairs_closed. split.
    - intros (e & He & Hq). apply in_map_iff in He. destruct He as (e' & <- & He'). now exists e'.
    - intros (e & He & Hq). exists (fpt (fst e), fpt (snd e)). split; [|easy]. apply in_map_iff. now exists e. }
  assert (LG : forall e, In e (cyc_pairs vs) -> long_edge k lm e).
  { intros e He. rewrite cyc_pairs_closed in He. rewrite closed_edges_map in LE. destruct (in_closed _ _ He) as [I1 I2]. rewrite Forall_forall in WV.
    split; [now apply WV|]. split; [now apply WV|]. apply (LE (fpt (fst e), fpt (snd e))). apply in_map_iff. now exists e. }
  assert (FIN : forall r : F, (exists e, In e (cyc_pairs vs) /\ forall d', is_min_dist (on_seg (fpt (fst e)) (fpt (snd e))) (fpt p) d' -> Rabs (B2R r - d') <= bpow radix2 (2 * k - 44) / lm) ->
    (forall e d', In e (cyc_pairs vs) -> is_min_dist (on_seg (fpt (fst e)) (fpt (snd e))) (fpt p) d' -> B2R r <= d' + bpow radix2 (2 * k - 44) / lm) -> Rabs (B2R r - d) <= bpow radix2 (2 * k - 44) / lm).
  { intros r (e & He & HE) UB. destruct MD as [(q & Q1 & Q2) Q3]. apply OUT in Q1. destruct Q1 as (e1 & I1 & O1).
    assert (U1 : B2R r <= d + bpow radix2 (2 * k - 44) / lm). { apply (UB e1 d I1). split; [now exists q|]. intros q' Hq'. apply Q3. apply OUT. now exists e1. }
    destruct (seg_min_exists (fpt (fst e)) (fpt (snd e)) (fpt p)) as [d' HD']. specialize (HE d' HD'). destruct HD' as [(q' & O2 & E2) _]. assert (d <= d') by (rewrite <- E2; apply Q3, OUT; now exists e).
    apply Rabs_le_inv in HE. apply Rabs_le. lra. }
  destruct vs as [|a [|b [|c vs]]]; cbn in HL; try lia.
  - unfold Polygon2D_dist. cbn [bind]. destruct (loop_F L k p lm PW Hk WP HM (open_pairs [a; b]) None) as (r & -> & R2 & R3 & _ & R5); [discriminate| |left; discriminate|].
    { cbn [open_pairs]. apply Forall_cons; [|apply Forall_nil]. apply LG. now left. }
    cbn [bind]. exists r. split; [reflexivity|]. split; [exact R2|]. apply FIN.
    + destruct R3 as [R3|(e & I & R3)]; [discriminate|]. exists e. split; [|exact R3]. cbn in I |- *. tauto.
    + intros e d' I M. cbn in I. destruct I as [<-|[<-|[]]]; [apply (R5 (a, b)); [now left|exact M]|]. apply (R5 (a, b)); [now left|]. cbn [fst snd] in *.
      destruct M as [(q & Q1 & Q2) Q3]. split; [exists q; split; [now apply on_seg_flip|exact Q2]|]. intros q' Hq'. apply Q3. now apply on_seg_flip.
  - assert (U : @Polygon2D_dist F (NumF L) (a :: b :: c :: vs) p false = (m <- @dist_loop F (NumF L) p (open_pairs (a :: b :: c :: vs)) None ;; @dist_loop F (NumF L) p [(last (a :: b :: c :: vs) a, a)] m)%py) by reflexivity.
    rewrite U. clear U. set (l := b :: c :: vs) in *. cbn [cyc_pairs] in *. rewrite path_open in *.
    destruct (loop_F L k p lm PW Hk WP HM (open_pairs (a :: l)) None) as (r & -> & R2 & R3 & _ & R5); [discriminate| |left; discriminate|].
    { apply Forall_forall. intros e He. apply LG. apply in_app_iff. now left. }
    cbn [bind]. destruct (loop_F L k p lm PW Hk WP HM [(last (a :: l) a, a)] (Some r)) as (z & -> & Z2 & Z3 & Z4 & Z5); [intros x [= <-]; exact R2| |left; discriminate|].
    { apply Forall_forall. intros e He. apply LG. apply in_app_iff. now right. }
    exists z. split; [reflexivity|]. split; [exact Z2|]. specialize (Z4 r eq_refl). apply FIN.
    + destruct Z3 as [[= <-]|(e & I & Z3)]; [|exists e; split; [apply in_app_iff; now right|exact Z3]]. destruct R3 as [R3|(e & I & R3)]; [discriminate|]. exists e. split; [apply in_app_iff; now left|exact R3].
    + intros e d' I M. apply in_app_iff in I. destruct I as [I|I]; [specialize (R5 e d' I M); lra|now apply (Z5 e)].
Qed.

(** As a plane figure: 0 for the points of odd parity, the distance from the
    outline for the others. *)
Theorem C158_plane_dist_F : forall (L : libm) (k : Z) (vs : list (vec F)) (p : vec F) (lm d : R) (n : nat), pow_square L -> (-100 <= k <= 100)%Z ->
  (2 <= List.length vs)%nat -> Forall (vusable k) vs -> vusable k p -> extended k vs ->
  let poly := map fpt vs in clear_of k poly (fpt p) -> count (crosses_right (fpt p)) (closed_edges poly) n ->
  bpow radix2 (k - 45) <= lm -> (forall e, In e (closed_edges poly) -> lm <= edist (fst e) (snd e)) -> is_min_dist (on_outline poly) (fpt p) d ->
  exists r, @Polygon2D_dist F (NumF L) vs p true = Ok (Some r) /\ is_finite r = true /\
    (Nat.odd n = true -> B2R r = 0) /\ (Nat.odd n = false -> Rabs (B2R r - d) <= bpow radix2 (2 * k - 44) / lm).
Proof.
  intros L k vs p lm d n PW Hk HL US UP EX poly CL HC HM LE MD.
  rewrite (C72_plane_dist F (NumF L) vs p (Nat.odd n) HL) by (apply (C155_parity_F L k); try assumption; discriminate).
  destruct (Nat.odd n).
  - eexists. split; [reflexivity|]. destruct (F_of_Z_exact 0 eq_refl) as [Z1 Z2]. split; [exact Z2|]. split; [intros _; exact Z1|discriminate].
  - assert (UW : forall v, vusable k v -> within k v) by (intros v [(A1 & A2 & _) (B1 & B2 & _)]; repeat split; assumption).
    destruct (C158_outline_dist_F L k vs p lm d PW ltac:(lia) HL) as (r & R1 & R2 & R3); try assumption.
    + revert US. apply Forall_impl. exact UW.
    + now apply UW.
    + exists r. split; [exact R1|]. split; [exact R2|]. split; [discriminate|intros _; exact R3].
Qed.

(** Distance between two segments none of whose end points is within the
    margin of C116 of the line of the other. *)
Lemma nmin_F L (a b : F) : is_finite a = true -> is_finite b = true -> is_finite (@nmin F (NumF L) a b) = true /\ B2R (@nmin F (NumF L) a b) = Rmin (B2R a) (B2R b).
Proof. intros A B. unfold nmin. cbn [nltb NumF]. rewrite ltb_F by assumption. unfold Rmin. destruct (Rlt_bool_spec (B2R b) (B2R a)), (Rle_dec (B2R a) (B2R b)); split; try assumption; lra. Qed.
Lemma Rmin_close a b x y e : Rabs (a - x) <= e -> Rabs (b - y) <= e -> Rabs (Rmin a b - Rmin x y) <= e.
Proof. intros A B. apply Rabs_le_inv in A, B. apply Rabs_le. unfold Rmin. destruct (Rle_dec a b), (Rle_dec x y); lra. Qed.
Theorem C158_seg_dist_F : forall (L : libm) (k : Z) (s o : seg F) (lm d : R), pow_square L -> (-200 <= k <= 200)%Z ->
  within k (s_origin s) -> within k (s_terminal s) -> within k (s_origin o) -> within k (s_terminal o) ->
  let a := fpt (s_origin s) in let b := fpt (s_terminal s) in let c := fpt (s_origin o) in let e := fpt (s_terminal o) in
  let far x y z := Rabs (side x y z) >= bpow radix2 (2 * k - 48) in far a b c -> far a b e -> far c e a -> far c e b ->
  bpow radix2 (k - 45) <= lm -> lm <= edist a b -> lm <= edist c e -> is_set_dist (on_seg a b) (on_seg c e) d ->
  exists r, @Segment2D_dist F (NumF L) s (VSeg o) = Ok r /\ is_finite r = true /\ Rabs (B2R r - d) <= bpow radix2 (2 * k - 44) / lm.
Proof.
  intros L k s o lm d PW Hk S1 S2 O1 O2 a b c e far F1 F2 F3 F4 HM L1 L2 SD.
  assert (LP : 0 < lm) by (pose proof (bpow_gt_0 radix2 (k - 45)); lra). assert (EP : 0 < bpow radix2 (2 * k - 44) / lm) by (apply Rdiv_lt_0_compat; [apply bpow_gt_0|exact LP]).
  destruct (C116_exist_intersection_F L k s o ltac:(lia) S1 S2 O1 O2 F1 F2 F3 F4) as (x & X1 & _ & X2). cbn [Segment2D_exist_intersection] in X1. assert (XE : @Segment2D_exist_intersection_seg F (NumF L) s o = x) by congruence.
  destruct (C33_dist_seg_R (rseg s) (rseg o)) as (d' & D1 & D2 & D3).
  assert (d' = d) as ->. { destruct SD as [(p & q & A1 & A2 & A3) A4]. destruct D2 as [(p' & q' & B1 & B2 & B3) B4]. specialize (A4 p' q' B1 B2). specialize (B4 p q A1 A2). lra. }
  cbn [Segment2D_dist] in *. unfold Segment2D_dist_seg in *. rewrite XE. destruct x.
  - exists (@nlit F (NumF L) 0 1). split; [reflexivity|]. destruct (F_of_Z_exact 0 eq_refl) as [Z1 Z2]. split; [exact Z2|]. rewrite (proj2 D3) by (now apply X2). change (@nlit F (NumF L) 0 1) with (F_of_Z 0). rewrite Z1, Rminus_0_r, Rabs_R0. lra.
  - assert (XR : Segment2D_exist_intersection_seg (rseg s) (rseg o) = false).
    { destruct (C27_exist_intersection_R (rseg s) (rseg o)) as (y & Y1 & Y2). cbn [Segment2D_exist_intersection] in Y1. injection Y1 as ->. destruct y; [|reflexivity]. exfalso. assert (false = true); [|discriminate]. apply X2. now apply Y2. }
    rewrite XR in D1.
    assert (R4 : forall (sg : seg F) (p : vec F), within k (s_origin sg) -> within k (s_terminal sg) -> within k p -> lm <= edist (fpt (s_origin sg)) (fpt (s_terminal sg)) ->
      exists r dd, @Segment2D_dist_point F (NumF L) sg p = Ok r /\ is_finite r = true /\ Segment2D_dist_point (rseg sg) (rvec p) = Ok dd /\ Rabs (B2R r - dd) <= bpow radix2 (2 * k - 44) / lm).
    { intros sg p W1 W2 W3 W4. destruct (C32_dist_point_R (rseg sg) (rvec p)) as (dd & v & E1 & E2 & _). destruct (edge_F L k p lm PW Hk W3 HM (s_origin sg, s_terminal sg)) as (r & R1 & R2 & R3); [now split|].
      exists r, dd. split; [destruct sg; exact R1|]. split; [exact R2|]. split; [exact E1|]. apply R3. exact E2. }
    destruct (R4 s (s_origin o) S1 S2 O1 L1) as (r1 & d1 & G1 & G2 & G3 & G4). destruct (R4 s (s_terminal o) S1 S2 O2 L1) as (r2 & d2 & H1 & H2 & H3 & H4).
    destruct (R4 o (s_origin s) O1 O2 S1 L2) as (r3 & d3 & I1 & I2 & I3 & I4). destruct (R4 o (s_terminal s) O1 O2 S2 L2) as (r4 & d4 & J1 & J2 & J3 & J4).
    change (s_origin (rseg o)) with (rvec (s_origin o)) in D1. change (s_terminal (rseg o)) with (rvec (s_terminal o)) in D1. change (s_origin (rseg s)) with (rvec (s_origin s)) in D1. change (s_terminal (rseg s)) with (rvec (s_terminal s)) in D1.
    rewrite G3, H3, I3, J3 in D1. cbn [bind] in D1. rewrite !nmin_R in D1. injection D1 as <-. rewrite G1, H1, I1, J1. cbn [bind]. eexists. split; [reflexivity|].
    destruct (nmin_F L r1 r2 G2 H2) as [V1 V2]. destruct (nmin_F L _ r3 V1 I2) as [V3 V4]. destruct (nmin_F L _ r4 V3 J2) as [V5 V6]. split; [exact V5|]. rewrite V6, V4, V2. apply Rmin_close; [apply Rmin_close; [apply Rmin_close|]|]; assumption.
Qed.

(** farthest_dist up to a relative 2^-50 *)
Theorem C158_farthest_dist_F : forall (L : libm) (s : seg F) (p : vec F) (d : R), pow_square L ->
  is_finite (vx (s_origin s)) = true -> is_finite (vy (s_origin s)) = true -> is_finite (vx (s_terminal s)) = true -> is_finite (vy (s_terminal s)) = true -> is_finite (vx p) = true -> is_finite (vy p) = true ->
  is_max_dist (on_seg (fpt (s_origin s)) (fpt (s_terminal s))) (fpt p) d -> d <= bpow radix2 500 ->
  exists r, @Segment2D_farthest_dist F (NumF L) s p = Ok r /\ is_finite r = true /\ Rabs (B2R r - d) <= bpow radix2 (-50) * d + bpow radix2 (-490).
Proof.
  intros L s p d PW A1 A2 B1 B2 P1 P2 MD HD. unfold Segment2D_farthest_dist. set (a := fpt (s_origin s)) in *. set (b := fpt (s_terminal s)) in *.
  assert (DM : d = Rmax (edist (fpt p) a) (edist (fpt p) b)).
  { destruct (C34_farthest_dist_R (rseg s) (rvec p)) as (d' & E & M). assert (d' = d) as ->. { destruct MD as [(q & Q1 & Q2) Q3]. destruct M as [(q' & Q1' & Q2') Q3']. specialize (Q3 q' Q1'). specialize (Q3' q Q1). change (edist (pt (rvec p)) q') with (edist (fpt p) q') in Q2'. change (edist (pt (rvec p)) q) with (edist (fpt p) q) in Q3'. lra. }
    unfold Segment2D_farthest_dist in E. rewrite !dist2_R in E. cbn [bind] in E. rewrite nmax_R in E. cbn [nsqrt NumR] in E.
    change (pt (s_origin (rseg s))) with a in E. change (pt (s_terminal (rseg s))) with b in E. change (pt (rvec p)) with (fpt p) in E.
    assert (NA : norm2 (psub a (fpt p)) = norm2 (psub (fpt p) a)) by (unfold norm2, psub, px, py; cbn [fst snd]; ring). assert (NB : norm2 (psub b (fpt p)) = norm2 (psub (fpt p) b)) by (unfold norm2, psub, px, py; cbn [fst snd]; ring). rewrite NA, NB in E.
    rewrite Rsqrt_py_ok in E by (eapply Rle_trans; [apply (norm2_nonneg (psub (fpt p) a))|apply Rmax_l]). injection E as <-. unfold edist, norm.
    pose proof (norm2_nonneg (psub (fpt p) a)). pose proof (norm2_nonneg (psub (fpt p) b)). unfold Rmax.
    destruct (Rle_dec (norm2 (psub (fpt p) a)) (norm2 (psub (fpt p) b))) as [K|K], (Rle_dec (sqrt (norm2 (psub (fpt p) a))) (sqrt (norm2 (psub (fpt p) b)))) as [Q|Q]; try reflexivity.
    - exfalso. apply Q. now apply sqrt_le_1_alt.
    - apply Rle_antisym; [exact Q|]. apply sqrt_le_1_alt. lra. }
  assert (DA : edist a (fpt p) <= d) by (rewrite edist_sym, DM; apply Rmax_l). assert (DB : edist b (fpt p) <= d) by (rewrite edist_sym, DM; apply Rmax_r).
  destruct (dist2_pos L (s_origin s) p PW A1 A2 P1 P2) as (q1 & G1 & G2 & G3 & G4); [change (edist a (fpt p) <= bpow radix2 500); lra|].
  destruct (dist2_pos L (s_terminal s) p PW B1 B2 P1 P2) as (q2 & H1 & H2 & H3 & H4); [change (edist b (fpt p) <= bpow radix2 500); lra|].
  change (edist (pt (rvec (s_origin s))) (pt (rvec p))) with (edist a (fpt p)) in G4. change (edist (pt (rvec (s_terminal s))) (pt (rvec p))) with (edist b (fpt p)) in H4. rewrite (edist_sym a) in G4. rewrite (edist_sym b) in H4.
  assert (G5 := sqrt_acc _ _ G3 (edist_nonneg _ _) G4). assert (H5 := sqrt_acc _ _ H3 (edist_nonneg _ _) H4). rewrite G1. cbn [bind]. rewrite H1. cbn [bind]. set (m := @nmax F (NumF L) q1 q2).
  assert (MM : is_finite m = true /\ 0 <= B2R m /\ B2R q1 <= B2R m /\ B2R q2 <= B2R m /\ (m = q1 \/ m = q2)).
  { unfold m, nmax. cbn [nltb NumF]. rewrite ltb_F by assumption. case Rlt_bool_spec; intros C; repeat split; try assumption; try lra; auto. }
  destruct MM as (M1 & M2 & M3 & M4 & M5). destruct (F_root L m M1 M2) as (r & R1 & R2 & R3). exists r. split; [exact R1|]. split; [exact R2|].
  assert (RM1 : rnd64 (sqrt (B2R q1)) <= B2R r) by (rewrite R3; apply rnd_le, sqrt_le_1_alt; exact M3). assert (RM2 : rnd64 (sqrt (B2R q2)) <= B2R r) by (rewrite R3; apply rnd_le, sqrt_le_1_alt; exact M4).
  rewrite (edist_sym a) in DA. rewrite (edist_sym b) in DB. set (h := bpow radix2 (-50)) in *. assert (HP : 0 < h) by apply bpow_gt_0.
  assert (EA : h * edist (fpt p) a <= h * d) by (apply Rmult_le_compat_l; lra). assert (EB : h * edist (fpt p) b <= h * d) by (apply Rmult_le_compat_l; lra).
  apply Rabs_le_inv in G5, H5. apply Rabs_le. split.
  - unfold Rmax in DM. destruct (Rle_dec (edist (fpt p) a) (edist (fpt p) b)); rewrite <- DM in *; lra.
  - rewrite R3. destruct M5 as [-> | ->]; lra.
Qed.

Lemma edist_ge_x (a b : point) : Rabs (px a - px b) <= edist a b.
Proof. destruct a as [x y], b as [z w]. unfold edist, psub, px, py. cbn [fst snd]. apply (P_LenF.abs_le_norm (x - z) (y - w)). Qed.
(** The polygon of C155's example has sides longer than 1 and its outline has a
    distance from (3, 2); two disjoint segments and a farthest distance. *)
Example C158_nonvacuous :
  let tiny : F := @B754_finite 53 1024 false 4503599627370496 (-112) eq_refl in
  let vs : list (vec F) := [mkVec tiny (F_of_Z 0) true; fv 7 1; fv 3 6] in let p := fv 3 2 in
  let s := mkSeg (fv 0 0) (fv 4 0) in let o := mkSeg (fv 0 2) (fv 4 3) in
  pow_square libm_sq /\ (forall e, In e (closed_edges (map fpt vs)) -> 1 <= edist (fst e) (snd e)) /\ (exists d, is_min_dist (on_outline (map fpt vs)) (fpt p) d) /\
  (let a := fpt (s_origin s) in let b := fpt (s_terminal s) in let c := fpt (s_origin o) in let e := fpt (s_terminal o) in
   let far x y z := Rabs (side x y z) >= bpow radix2 (2 * 3 - 48) in far a b c /\ far a b e /\ far c e a /\ far c e b /\ 1 <= edist a b /\ 1 <= edist c e /\
   (exists d, is_set_dist (on_seg a b) (on_seg c e) d) /\ (exists d, is_max_dist (on_seg a b) (fpt p) d)).
Proof.
  intros tiny vs p s o. split; [exact pow_square_sq|].
  assert (TV : B2R tiny = bpow radix2 (-60)). { unfold tiny. cbn [B2R cond_Zopp]. unfold F2R; cbn [Fnum Fexp]. change (IZR 4503599627370496) with (bpow radix2 52). rewrite <- bpow_plus. reflexivity. }
  assert (TB : 0 < bpow radix2 (-60) <= 1) by (split; [apply bpow_gt_0|change 1 with (bpow radix2 0); apply bpow_le; lia]). set (tv := bpow radix2 (-60)) in *.
  assert (EV : map fpt vs = [(tv, 0); (7, 1); (3, 6)]). { unfold vs. cbn [map]. rewrite !fpt_fv by lia. unfold fpt. cbn [vx vy]. rewrite TV, (proj1 (F_of_Z_exact 0 eq_refl)). reflexivity. }
  split.
  { rewrite EV. intros e He. cbn in He. destruct He as [<-|[<-|[<-|[]]]]; cbn [fst snd]; eapply Rle_trans; try apply edist_ge_x; unfold px; cbn [fst]; [rewrite Rabs_left|rewrite Rabs_pos_eq|rewrite Rabs_pos_eq]; lra. }
  split.
  { destruct (C72_outline_dist_R (map rvec vs) (rvec p)) as (d & _ & HD); [discriminate|]. exists d. rewrite map_map in HD. exact HD. }
  unfold s, o. cbn [s_origin s_terminal]. rewrite !fpt_fv by lia. cbv zeta.
  assert (B : bpow radix2 (2 * 3 - 48) <= 1) by (change 1 with (bpow radix2 0); apply bpow_le; lia). unfold side, cross, psub, px, py. cbn [fst snd].
  split; [|split; [|split; [|split; [|split; [|split; [|split]]]]]].
  1-4: apply Rle_ge; first [apply Rle_trans with (2 := Rle_abs _); lra|rewrite <- Rabs_Ropp; apply Rle_trans with (2 := Rle_abs _); lra].
  - eapply Rle_trans; [|apply edist_ge_x]. unfold px; cbn [fst]. rewrite Rabs_left; lra.
  - eapply Rle_trans; [|apply edist_ge_x]. unfold px; cbn [fst]. rewrite Rabs_left; lra.
  - destruct (C33_dist_seg_R (rseg s) (rseg o)) as (d & _ & HD & _). exists d. unfold spts, rseg, s, o in HD. cbn [s_origin s_terminal] in HD.
    rewrite <- !(fpt_fv) by lia. exact HD.
  - destruct (C34_farthest_dist_R (rseg s) (rvec p)) as (d & _ & HD). exists d. unfold p. rewrite <- !(fpt_fv) by lia. exact HD.
Qed.
