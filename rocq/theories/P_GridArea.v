(** * P_GridArea: polygon areas in binary64 on a grid (C115) *)
From Coq Require Import ZArith List Bool String Reals Lra Lia Psatz Permutation Classical.
From Flocq Require Import Core BinarySingleNaN.
From Verif Require Import Base Types NumR NumF R_Tac Spec Spec2 Abs M_Vector M_Segment M_Polygon
  L_Angle P_Vector P_Polygon P_Polygon2 L_Float P_Float P_Grid P_Grid2.
Import ListNotations.
Local Open Scope R_scope.

(** coordinates that are integers of magnitude at most [m], times 2^e *)
Definition on_small_grid (m e : Z) (v : vec F) : Prop :=
  is_finite (vx v) = true /\ is_finite (vy v) = true /\
  exists i j, (Z.abs i <= m)%Z /\ (Z.abs j <= m)%Z /\ B2R (vx v) = IZR i * bpow radix2 e /\ B2R (vy v) = IZR j * bpow radix2 e.

Lemma area_fold L m e (es : list (vec F * vec F)) s N k : (0 <= m)%Z -> (-250 <= e <= 200)%Z ->
  (forall q, In q es -> on_small_grid m e (fst q) /\ on_small_grid m e (snd q)) ->
  units (e + e) N s -> (Z.abs N <= k * (2 * (m * m)))%Z -> (0 <= k)%Z -> ((k + Z.of_nat (List.length es)) * (2 * (m * m)) <= 2 ^ 53)%Z ->
  exists M, (Z.abs M <= 2 ^ 53)%Z /\ units (e + e) M (fold_left (fun s q => @nadd F (NumF L) s (@edge_term F (NumF L) q)) es s) /\
    IZR M * bpow radix2 (e + e) = IZR N * bpow radix2 (e + e) + Rsum (map (fun q => cross (pt (rvec (fst q))) (pt (rvec (snd q)))) es).
Proof.
  intros Hm He. revert s N k. induction es as [|[a b] es IH]; intros s N k G S HN Hk HB.
  - cbn [fold_left map Rsum fold_right List.length] in *. exists N. split; [|split; [exact S|lra]]. rewrite Z.add_0_r in HB. lia.
  - destruct (G (a, b) (or_introl eq_refl)) as [(A1 & A2 & ai & aj & A3 & A4 & A5 & A6) (B1 & B2 & bi & bj & B3 & B4 & B5 & B6)]. cbn [fst snd] in *.
    cbn [List.length] in HB. rewrite Nat2Z.inj_succ in HB. unfold Z.succ in HB.
    set (q := (2 * (m * m))%Z) in *. assert (Q0 : (0 <= q)%Z) by (unfold q; pose proof (Z.square_nonneg m); lia).
    assert (KB : ((k + 1) * q <= 2 ^ 53)%Z) by (pose proof (Z.mul_nonneg_nonneg (Z.of_nat (List.length es)) q (Zle_0_nat _) Q0); lia).
    assert (KQ : (q <= 2 ^ 53)%Z) by (pose proof (Z.mul_nonneg_nonneg k q Hk Q0); lia).
    pose proof (zmul_bound ai bj m m A3 B4) as P1. pose proof (zmul_bound bi aj m m B3 A4) as P2.
    assert (T : units (e + e) (ai * bj - bi * aj) (@edge_term F (NumF L) (a, b))).
    { unfold edge_term. cbn [fst snd nsub nmul NumF]. apply units_sub; [apply units_mul; [split; assumption|split; assumption| |]|apply units_mul; [split; assumption|split; assumption| |]| |]; unfold q in *; lia. }
    destruct (IH (@nadd F (NumF L) s (@edge_term F (NumF L) (a, b))) (N + (ai * bj - bi * aj))%Z (k + 1)%Z) as (M & M1 & M2 & M3).
    + intros; apply G; cbn; auto.
    + cbn [nadd NumF]. apply units_add; try assumption; unfold q in *; lia.
    + unfold q in *. lia.
    + lia.
    + lia.
    + exists M. split; [exact M1|]. split; [exact M2|]. rewrite M3. cbn [map Rsum fold_right fst snd]. fold (Rsum (map (fun q0 => cross (pt (rvec (fst q0))) (pt (rvec (snd q0)))) es)).
      unfold cross, pt, rvec, px, py. cbn [fst snd vx vy]. rewrite A5, A6, B5, B6, plus_IZR, minus_IZR, !mult_IZR, bpow_plus. ring.
Qed.
(** On a grid small enough for the number of vertices, the area and the
    orientation are the exact ones. *)
Theorem C115_area_F : forall (L : libm) (m e : Z) (vs : list (vec F)), (0 <= m)%Z -> (-250 <= e <= 200)%Z -> Forall (on_small_grid m e) vs ->
  (Z.of_nat (List.length vs) * (2 * (m * m)) <= 2 ^ 53)%Z ->
  let A := shoelace (map (fun v => pt (rvec v)) vs) in
  ((3 <= List.length vs)%nat ->
     B2R (@Polygon2D_double_signed_area F (NumF L) vs) = A /\ B2R (@Polygon2D_area F (NumF L) vs) = Rabs A / 2 /\
     (@Polygon2D_is_counter_clockwise F (NumF L) vs = true <-> A > 0) /\ (@Polygon2D_is_clockwise F (NumF L) vs = true <-> A < 0)) /\
  ((List.length vs < 3)%nat -> B2R (@Polygon2D_area F (NumF L) vs) = 0).
Proof.
  intros L m e vs Hm He G HB A. destruct (F_of_Z_exact 0 eq_refl) as [Z1 Z2]. split.
  - intros HL. assert (exists M, (Z.abs M <= 2 ^ 53)%Z /\ units (e + e) M (@Polygon2D_double_signed_area F (NumF L) vs) /\ IZR M * bpow radix2 (e + e) = A) as (M & M1 & M2 & M3).
    { destruct vs as [|v0 [|v1 [|v2 vs]]]; cbn [List.length] in HL; try lia. set (l := v0 :: v1 :: v2 :: vs) in *.
      assert (CL : List.length (cyc_pairs l) = List.length l) by (rewrite cyc_pairs_closed; unfold closed_edges, l; cbn [List.length]; rewrite combine_length, app_length; cbn [List.length]; lia).
      destruct (area_fold L m e (cyc_pairs l) (@nlit F (NumF L) 0 1) 0 0) as (M & M1 & M2 & M3); try assumption.
      - intros q Hq. rewrite cyc_pairs_closed in Hq. apply in_closed in Hq. rewrite Forall_forall in G. split; apply G; tauto.
      - rewrite num0_F. split; [exact Z2|]. rewrite Z1. lra.
      - cbn. lia.
      - lia.
      - rewrite CL. exact HB.
      - exists M. split; [exact M1|]. split; [exact M2|]. rewrite M3, Rmult_0_l, Rplus_0_l. unfold A, shoelace. rewrite closed_edges_map, map_map, <- cyc_pairs_closed. reflexivity. }
    unfold Polygon2D_area, Polygon2D_is_counter_clockwise, Polygon2D_is_clockwise.
    destruct M2 as [M2 M2']. revert M2 M2'. generalize (@Polygon2D_double_signed_area F (NumF L) vs). intros o M2 M2'.
    assert (HF : units (-1) 1 (@nlit F (NumF L) 1 2)). { split; [vm_compute; reflexivity|]. vm_compute. lra. }
    assert (U : units (e + e + -1) (M * 1) (Bmult mode_NE o (@nlit F (NumF L) 1 2))) by (apply units_mul; try assumption; try (split; assumption); lia).
    split; [now rewrite M2'|]. split; [|split].
    + cbn [nabs nmul NumF]. destruct (F_abs (Bmult mode_NE o (@nlit F (NumF L) 1 2))) as [E1 _]. refine (eq_trans E1 _). rewrite (proj2 U), Z.mul_1_r, bpow_plus, <- Rmult_assoc, M3, Rabs_mult.
      change (bpow radix2 (-1)) with (/ 2). rewrite (Rabs_pos_eq (/ 2)) by lra. reflexivity.
    + rewrite num0_F. cbn [nltb NumF]. rewrite ltb_F by assumption. rewrite Z1, M2', M3, Rlt_bool_iff. lra.
    + rewrite num0_F. cbn [nltb NumF]. rewrite ltb_F by assumption. rewrite Z1, M2', M3, Rlt_bool_iff. lra.
  - intros HL. destruct vs as [|v0 [|v1 [|v2 vs]]]; cbn [List.length] in HL; try lia; vm_compute; reflexivity.
Qed.
Example C115_nonvacuous : let v := fun n m => mkVec (Fd n (-1)) (Fd m (-1)) true : vec F in let vs := [v 0 0; v 8 0; v 2 3; v 0 8]%Z in
  Forall (on_small_grid (2 ^ 20) (-1)) vs /\ (Z.of_nat (List.length vs) * (2 * (2 ^ 20 * 2 ^ 20)) <= 2 ^ 53)%Z /\ (3 <= List.length vs)%nat.
Proof.
  intros v vs. split; [|split; [vm_compute; discriminate|cbn; lia]].
  assert (S : forall n m, (Z.abs n <= 2 ^ 20)%Z -> (Z.abs m <= 2 ^ 20)%Z -> on_small_grid (2 ^ 20) (-1) (v n m)).
  { intros n m Hn Hm. destruct (Fd_grid n m (-1)) as (i & j & _ & _ & F1 & F2); try lia. split; [apply F1|]. split; [apply F2|]. exists n, m. split; [easy|]. split; [easy|].
    unfold v. cbn [vx vy]. split; apply Fd_exact; lia. }
  repeat constructor; apply S; lia.
Qed.
