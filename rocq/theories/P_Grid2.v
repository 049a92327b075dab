(** * P_Grid2: point in polygon in binary64 on a grid (C112) *)
From Coq Require Import ZArith List Bool String Reals Lra Lia Psatz Permutation Classical.
From Flocq Require Import Core BinarySingleNaN.
From Verif Require Import Base Types NumR NumF R_Tac Spec Spec2 Abs M_Angle M_Vector M_Line M_Triangle M_Segment M_Sector M_Rect M_Polygon M_Hull
  L_Angle P_Angle P_Vector P_Line L_Seg P_Segment P_Triangle P_Rect P_Polygon P_Polygon2 P_Polygon3 L_Float P_Float P_Grid.
Import ListNotations.
Local Open Scope R_scope.

(** ** The bounding box *)
Definition gfin (v : vec F) : Prop := is_finite (vx v) = true /\ is_finite (vy v) = true.
Definition orel (a : option F) (b : option R) : Prop :=
  match a, b with None, None => True | Some x, Some y => is_finite x = true /\ B2R x = y | _, _ => False end.
Lemma upd_min_F L (m : option F) (m' : option R) (x : F) : orel m m' -> is_finite x = true -> orel (@upd_min F (NumF L) m x) (upd_min m' (B2R x)).
Proof.
  destruct m as [y|], m' as [y'|]; cbn [orel upd_min]; try easy. intros [Fy <-] Fx. cbn [nltb NumF]. rewrite ltb_F by easy. rnum.
  destruct (Rlt_bool (B2R x) (B2R y)); now split.
Qed.
Lemma upd_max_F L (m : option F) (m' : option R) (x : F) : orel m m' -> is_finite x = true -> orel (@upd_max F (NumF L) m x) (upd_max m' (B2R x)).
Proof.
  destruct m as [y|], m' as [y'|]; cbn [orel upd_max]; try easy. intros [Fy <-] Fx. cbn [nltb NumF]. rewrite ltb_F by easy. rnum.
  destruct (Rlt_bool (B2R y) (B2R x)); now split.
Qed.
Lemma ext_F (updF : option F -> F -> option F) (updR : option R -> R -> option R) (proj : vec F -> F) (proj' : vec R -> R) :
  (forall m m' x, orel m m' -> is_finite x = true -> orel (updF m x) (updR m' (B2R x))) ->
  (forall v, proj' (rvec v) = B2R (proj v)) -> forall vs, Forall (fun v => is_finite (proj v) = true) vs ->
  orel (bbox_extent vs updF proj) (bbox_extent (map rvec vs) updR proj').
Proof.
  intros U P vs H. unfold bbox_extent. assert (I : orel None None) by exact I. revert I. generalize (@None F) (@None R).
  induction H as [|v vs Hv _ IH]; intros m m' I; cbn [fold_left map]; [exact I|]. apply IH. rewrite P. now apply U.
Qed.
Lemma upd_in (upd : option F -> F -> option F) (proj : vec F -> F) vs :
  (forall m x, upd m x = Some x \/ (exists y, m = Some y /\ upd m x = Some y)) ->
  forall m, fold_left (fun m p => upd m (proj p)) vs m = m \/ exists v, In v vs /\ fold_left (fun m p => upd m (proj p)) vs m = Some (proj v).
Proof.
  intros U. induction vs as [|v vs IH]; intros m; cbn [fold_left]; [now left|].
  destruct (IH (upd m (proj v))) as [E|(w & W & E)]; rewrite E.
  - destruct (U m (proj v)) as [K|(y & K1 & K2)]; [right; exists v; cbn; auto|left; congruence].
  - right. exists w. cbn. auto.
Qed.

(** what the bounding box of grid points is, in both arithmetics *)
Lemma bbox_F L e vs : Forall (on_grid e) vs -> vs <> [] -> (-250 <= e <= 200)%Z ->
  exists a b c d bbF bbR,
    (Z.abs a <= 2 ^ 25 /\ Z.abs b <= 2 ^ 25 /\ Z.abs c <= 2 ^ 25 /\ Z.abs d <= 2 ^ 25 /\ a <= b /\ c <= d)%Z /\
    @Polygon2D_get_bounding_box F (NumF L) vs = Ok bbF /\ Polygon2D_get_bounding_box (map rvec vs) = Ok bbR /\
    units e a (@Rect2D_left F bbF) /\ units e b (@Rect2D_right F (NumF L) bbF) /\ units e c (@Rect2D_top F bbF) /\ units e d (@Rect2D_bottom F (NumF L) bbF) /\
    Rect2D_left bbR = IZR a * bpow radix2 e /\ Rect2D_right bbR = IZR b * bpow radix2 e /\
    Rect2D_top bbR = IZR c * bpow radix2 e /\ Rect2D_bottom bbR = IZR d * bpow radix2 e.
Proof.
  intros G NE He.
  assert (FX : Forall (fun v => is_finite (vx v) = true) vs) by (eapply Forall_impl; [|exact G]; intros v Gv; apply (grid_fin e v Gv)).
  assert (FY : Forall (fun v => is_finite (vy v) = true) vs) by (eapply Forall_impl; [|exact G]; intros v Gv; apply (grid_fin e v Gv)).
  assert (UMI : forall (m : option F) x, @upd_min F (NumF L) m x = Some x \/ (exists y, m = Some y /\ @upd_min F (NumF L) m x = Some y)).
  { intros [y|] x; cbn [upd_min]; [destruct (nltb x y); eauto|eauto]. }
  assert (UMA : forall (m : option F) x, @upd_max F (NumF L) m x = Some x \/ (exists y, m = Some y /\ @upd_max F (NumF L) m x = Some y)).
  { intros [y|] x; cbn [upd_max]; [destruct (nltb y x); eauto|eauto]. }
  assert (UX : forall v, In v vs -> exists n, (Z.abs n <= 2 ^ 25)%Z /\ units e n (vx v)).
  { intros v I. rewrite Forall_forall in G. destruct (G v I) as (n & m & ? & ? & ? & ?). eauto. }
  assert (UY : forall v, In v vs -> exists n, (Z.abs n <= 2 ^ 25)%Z /\ units e n (vy v)).
  { intros v I. rewrite Forall_forall in G. destruct (G v I) as (n & m & ? & ? & ? & ?). eauto. }
  assert (GEN : forall (updF : option F -> F -> option F) (updR : option R -> R -> option R) (proj : vec F -> F) (proj' : vec R -> R),
    (forall m m' x, orel m m' -> is_finite x = true -> orel (updF m x) (updR m' (B2R x))) -> (forall v, proj' (rvec v) = B2R (proj v)) ->
    Forall (fun v => is_finite (proj v) = true) vs -> (forall m x, updF m x = Some x \/ (exists y, m = Some y /\ updF m x = Some y)) ->
    (forall v, In v vs -> exists n, (Z.abs n <= 2 ^ 25)%Z /\ units e n (proj v)) ->
    exists n x, (Z.abs n <= 2 ^ 25)%Z /\ units e n x /\ bbox_extent vs updF proj = Some x /\ bbox_extent (map rvec vs) updR proj' = Some (IZR n * bpow radix2 e)).
  { intros updF updR proj proj' U P FF UI UU. pose proof (ext_F updF updR proj proj' U P vs FF) as O.
    assert (S : exists v, In v vs /\ bbox_extent vs updF proj = Some (proj v)).
    { unfold bbox_extent. destruct vs as [|v0 vs']; [easy|]. cbn [fold_left].
      destruct (upd_in updF proj vs' UI (updF None (proj v0))) as [E|(v & I & E)]; rewrite E; [|exists v; cbn; auto].
      destruct (UI None (proj v0)) as [K|(y & K & _)]; [exists v0; cbn; auto|discriminate]. }
    destruct S as (v & I & S). destruct (UU v I) as (n & N1 & N2). exists n, (proj v). split; [easy|]. split; [easy|]. split; [easy|].
    rewrite S in O. unfold orel in O. destruct (bbox_extent (map rvec vs) updR proj'); [|easy]. destruct O as [_ <-]. destruct N2 as [_ ->]. reflexivity. }
  destruct (GEN _ _ (@vx F) (@vx R) (upd_min_F L) (fun v => eq_refl) FX UMI UX) as (a & xa & A1 & A2 & A3 & A4).
  destruct (GEN _ _ (@vx F) (@vx R) (upd_max_F L) (fun v => eq_refl) FX UMA UX) as (b & xb & B1 & B2 & B3 & B4).
  destruct (GEN _ _ (@vy F) (@vy R) (upd_min_F L) (fun v => eq_refl) FY UMI UY) as (c & xc & C1 & C2 & C3 & C4).
  destruct (GEN _ _ (@vy F) (@vy R) (upd_max_F L) (fun v => eq_refl) FY UMA UY) as (d & xd & D1 & D2 & D3 & D4).
  assert (OR : (a <= b /\ c <= d)%Z).
  { destruct vs as [|v0 vs']; [easy|]. cbn [map] in A4, B4, C4, D4.
    destruct (ext_min (map rvec vs') (@vx R) (rvec v0)) as (mx & E1 & _ & M1). destruct (ext_max (map rvec vs') (@vx R) (rvec v0)) as (Mx & E2 & _ & M2).
    destruct (ext_min (map rvec vs') (@vy R) (rvec v0)) as (my & E3 & _ & M3). destruct (ext_max (map rvec vs') (@vy R) (rvec v0)) as (My & E4 & _ & M4).
    assert (E1' : mx = IZR a * bpow radix2 e) by congruence. assert (E2' : Mx = IZR b * bpow radix2 e) by congruence.
    assert (E3' : my = IZR c * bpow radix2 e) by congruence. assert (E4' : My = IZR d * bpow radix2 e) by congruence.
    specialize (M1 (rvec v0) (or_introl eq_refl)). specialize (M2 (rvec v0) (or_introl eq_refl)). specialize (M3 (rvec v0) (or_introl eq_refl)). specialize (M4 (rvec v0) (or_introl eq_refl)).
    pose proof (bpow_gt_0 radix2 e) as U. subst mx Mx my My.
    split; apply le_IZR; apply Rmult_le_reg_r with (bpow radix2 e); lra. }
  destruct OR as [AB CD].
  exists a, b, c, d. do 2 eexists. split; [auto 8|].
  unfold Polygon2D_get_bounding_box at 1 2. rewrite A3, B3, C3, D3. rewrite A4, B4, C4, D4. split; [reflexivity|]. split; [reflexivity|].
  assert (SP : forall i j x y, units e i x -> units e j y -> (Z.abs i <= 2 ^ 25)%Z -> (Z.abs j <= 2 ^ 25)%Z -> (i <= j)%Z ->
    units e j (Bplus mode_NE x (Babs (Bminus mode_NE y x)))).
  { intros i j x y X Y Hi Hj Hij. assert (S : units e (j - i) (Bminus mode_NE y x)) by (apply units_sub; try assumption; lia).
    assert (A : units e (j - i) (Babs (Bminus mode_NE y x))).
    { destruct S as [S1 S2]. destruct (F_abs (Bminus mode_NE y x)) as [E1 E2]. split; [now rewrite E2|]. rewrite E1, S2. apply Rabs_pos_eq.
      apply Rmult_le_pos; [apply IZR_le; lia|apply bpow_ge_0]. }
    replace j with (i + (j - i))%Z at 1 by lia. apply units_add; try assumption; lia. }
  unfold Rect2D_right, Rect2D_bottom, Rect2D_left, Rect2D_top, Rect2D_of_vec_size, Size2D_init, Vector2D_of_vec. cbn [r_top_left r_size sz_length sz_width vx vy V nadd nsub nabs NumF].
  split; [exact A2|]. split; [now apply (SP a b)|]. split; [exact C2|]. split; [now apply (SP c d)|]. rnum.
  pose proof (bpow_gt_0 radix2 e) as U. apply IZR_le in AB, CD.
  split; [reflexivity|]. split; [rewrite Rabs_pos_eq by nra; ring|]. split; [reflexivity|]. rewrite Rabs_pos_eq by nra; ring.
Qed.

(** ** The half line *)
Lemma half_F L e v p pn pm n m bb a b c d : (-250 <= e <= 200)%Z ->
  (Z.abs pn <= 2 ^ 25)%Z -> (Z.abs pm <= 2 ^ 25)%Z -> units e pn (vx p) -> units e pm (vy p) ->
  (Z.abs n <= 2 ^ 25)%Z -> (Z.abs m <= 2 ^ 25)%Z -> units e n (vx v) -> units e m (vy v) ->
  (Z.abs a <= 2 ^ 25 /\ Z.abs b <= 2 ^ 25 /\ Z.abs c <= 2 ^ 25 /\ Z.abs d <= 2 ^ 25 /\ a <= b /\ c <= d)%Z ->
  units e a (@Rect2D_left F bb) -> units e b (@Rect2D_right F (NumF L) bb) -> units e c (@Rect2D_top F bb) -> units e d (@Rect2D_bottom F (NumF L) bb) ->
  exists x, @half_line F (NumF L) v p bb = Ok (mkSeg (Vector2D_of_vec p) (mkVec x (vy p) true)) /\ is_finite x = true /\
    IZR (pn + 3 * ((b - a) + (d - c))) * bpow radix2 e <= B2R x <= IZR (2 ^ 31) * bpow radix2 e /\
    (n = pn -> m = pm -> a = b -> c = d -> B2R x = B2R (vx p)).
Proof.
  intros He P1 P2 P3 P4 V1 V2 V3 V4 (A1 & A2 & A3 & A4 & A5 & A6) UA UB UC UD. set (u := bpow radix2 e).
  assert (U : 0 < u) by apply bpow_gt_0.
  assert (FU : forall k, (Z.abs k <= 2 ^ 53)%Z -> fmt64 (IZR k * u)) by (intros; apply fmt_units; lia).
  assert (CU : forall k, (Z.abs k <= 2 ^ 62)%Z -> - cap <= IZR k * u <= cap) by (intros; apply (units_cap k e 62); lia).
  (* r *)
  assert (DX : units e (n - pn) (Bminus mode_NE (vx v) (vx p))) by (apply units_sub; try assumption; lia).
  assert (DY : units e (m - pm) (Bminus mode_NE (vy v) (vy p))) by (apply units_sub; try assumption; lia).
  assert (SQ : forall k, (Z.abs k <= 2 ^ 26 -> 0 <= k * k <= 2 ^ 52)%Z).
  { intros k Hk. pose proof (zmul_bound k k (2 ^ 26) (2 ^ 26) Hk Hk). pose proof (Z.square_nonneg k). lia. }
  pose proof (SQ (n - pn)%Z ltac:(lia)) as QX. pose proof (SQ (m - pm)%Z ltac:(lia)) as QY.
  assert (R2 : units (e + e) ((n - pn) * (n - pn) + (m - pm) * (m - pm)) (@Vector2D_r2 F (NumF L) (@Vector2D_sub F (NumF L) v p))).
  { unfold Vector2D_r2, Vector2D_sub, V. cbn [vx vy nadd nmul nsub NumF]. apply units_add; [apply units_mul|apply units_mul| |]; try assumption; lia. }
  set (N := ((n - pn) * (n - pn) + (m - pm) * (m - pm))%Z) in *.
  assert (N0 : (0 <= N <= 2 ^ 53)%Z) by (unfold N; lia).
  set (r2 := @Vector2D_r2 F (NumF L) (@Vector2D_sub F (NumF L) v p)) in *.
  assert (RR : exists r, @Vector2D_r F (NumF L) (@Vector2D_sub F (NumF L) v p) = Ok r /\ is_finite r = true /\ 0 <= B2R r <= IZR (2 ^ 27) * u /\ (N = 0%Z -> B2R r = 0)).
  { unfold Vector2D_r. fold r2. cbn [nsqrt NumF]. unfold F_sqrt. destruct R2 as [R21 R22]. rewrite bpow_plus in R22. fold u in R22.
    destruct (F_of_Z_exact 0 eq_refl) as [Z1 Z2]. rewrite ltb_F by easy. rewrite Z1, R22.
    assert (N0' : 0 <= IZR N <= IZR (2 ^ 53)) by (split; apply IZR_le; lia).
    rewrite Rlt_bool_false by nra. eexists. split; [reflexivity|].
    destruct (Bsqrt_correct 53 1024 _ _ mode_NE r2) as (S1 & S2 & _).
    change (round radix2 _ _ _) with (rnd64 (sqrt (B2R r2))) in S1.
    assert (B0 : 0 <= sqrt (B2R r2) <= IZR (2 ^ 27) * u).
    { split; [apply sqrt_pos|]. rewrite <- (sqrt_square (IZR (2 ^ 27) * u)) by (apply Rmult_le_pos; [apply IZR_le; lia|lra]). apply sqrt_le_1_alt. rewrite R22.
      replace (IZR (2 ^ 27) * u * (IZR (2 ^ 27) * u)) with (IZR (2 ^ 27 * 2 ^ 27) * (u * u)) by (rewrite mult_IZR; ring).
      apply Rmult_le_compat_r; [nra|]. apply IZR_le. lia. }
    split.
    - destruct r2 as [s|s| |s mm ee Hb]; cbn in R21, S2; try discriminate; try exact S2.
      destruct s; [|exact S2]. exfalso. assert (K : B2R (B754_finite true mm ee Hb : F) < 0).
      { cbn [B2R]. apply F2R_lt_0. reflexivity. } rewrite R22 in K. nra.
    - rewrite S1. split; [apply rnd_between; [apply (fmt_Z 0); lia|apply FU; lia|exact B0]|].
      intros ->. rewrite R22, Rmult_0_l, sqrt_0. apply rnd_id. apply (fmt_Z 0). lia. }
  destruct RR as (r & ER & Fr & Br & Zr). unfold half_line. rewrite ER. cbn [bind]. clear R2 ER r2.
  assert (W1 : units e (b - a) (Bminus mode_NE (@Rect2D_right F (NumF L) bb) (@Rect2D_left F bb))) by (apply units_sub; try assumption; lia).
  assert (W2 : units e (b - a + d) (Bplus mode_NE (Bminus mode_NE (@Rect2D_right F (NumF L) bb) (@Rect2D_left F bb)) (@Rect2D_bottom F (NumF L) bb))) by (apply units_add; try assumption; lia).
  assert (W3 : units e (b - a + d - c) (Bminus mode_NE (Bplus mode_NE (Bminus mode_NE (@Rect2D_right F (NumF L) bb) (@Rect2D_left F bb)) (@Rect2D_bottom F (NumF L) bb)) (@Rect2D_top F bb))) by (apply units_sub; try assumption; lia).
  set (w := Bminus mode_NE (Bplus mode_NE _ _) _) in W3. set (Wn := (b - a + (d - c))%Z). replace (b - a + d - c)%Z with Wn in W3 by (unfold Wn; lia).
  assert (HWn : (0 <= Wn <= 2 ^ 27)%Z) by (unfold Wn; lia). clear W1 W2.
  exists (Bplus mode_NE (vx p) (Bmult mode_NE (Bplus mode_NE w r) (F_of_Z 3))). split.
  { reflexivity. }
  clearbody w. destruct W3 as [FW EW]. fold u in EW. destruct (F_of_Z_exact 3 eq_refl) as [T1 T2]. destruct P3 as [FP EP]. fold u in EP.
  assert (W0 : 0 <= IZR Wn) by (apply IZR_le; lia). assert (WU : 0 <= IZR Wn * u) by nra.
  assert (K27 : IZR Wn * u <= IZR (2 ^ 27) * u) by (apply Rmult_le_compat_r; [lra|]; apply IZR_le; lia).
  destruct (add_between w r (IZR Wn * u) (IZR (2 ^ 28) * u) FW Fr) as [S1 S2]; [apply FU; lia|apply FU; lia|apply CU; lia|apply CU; lia| |].
  { rewrite EW. replace (IZR (2 ^ 28)) with (2 * IZR (2 ^ 27)) by (rewrite <- mult_IZR; reflexivity). lra. }
  set (s := Bplus mode_NE w r) in *.
  assert (K3 : IZR (3 * Wn) * u = 3 * (IZR Wn * u)) by (rewrite mult_IZR; ring).
  destruct (mul_between s (F_of_Z 3) (IZR (3 * Wn) * u) (IZR (2 ^ 30) * u) S1 T2) as [M1 M2]; [apply FU; lia|apply FU; lia|apply CU; lia|apply CU; lia| |].
  { rewrite T1, K3. replace (IZR (2 ^ 30)) with (4 * IZR (2 ^ 28)) by (rewrite <- mult_IZR; reflexivity). nra. }
  set (t := Bmult mode_NE s (F_of_Z 3)) in *.
  assert (KP : Rabs (IZR pn) <= IZR (2 ^ 25)) by (rewrite <- abs_IZR; apply IZR_le; lia). apply Rabs_le_inv in KP.
  destruct (add_between (vx p) t (IZR (pn + 3 * Wn) * u) (IZR (2 ^ 31) * u) FP M1) as [X1 X2]; [apply FU; lia|apply FU; lia|apply CU; lia|apply CU; lia| |].
  { rewrite EP, plus_IZR. replace (IZR (2 ^ 31)) with (IZR (2 ^ 30) + IZR (2 ^ 30)) by (rewrite <- plus_IZR; reflexivity). assert (IZR (2 ^ 25) <= IZR (2 ^ 30)) by (apply IZR_le; lia). nra. }
  split; [exact X1|]. split; [exact X2|].
  intros -> -> -> ->. assert (WZ : Wn = 0%Z) by (unfold Wn; lia). assert (NZ : N = 0%Z) by (unfold N; lia). rewrite WZ in *.
  destruct (add_between w r 0 0 FW Fr) as [S1' S2']; try (apply (fmt_Z 0); lia); try (pose proof (bpow_ge_0 radix2 1000); unfold cap; lra). { rewrite EW, Zr by easy. lra. }
  fold s in S2'. destruct (mul_between s (F_of_Z 3) 0 0 S1 T2) as [M1' M2']; try (apply (fmt_Z 0); lia); try (pose proof (bpow_ge_0 radix2 1000); unfold cap; lra). { rewrite T1. lra. }
  fold t in M2'. assert (Q : units e (pn + 0) (Bplus mode_NE (vx p) t)) by (apply units_add; [split; assumption|split; [exact M1|rewrite Rmult_0_l; lra]|lia|lia]).
  destruct Q as [_ Q]. rewrite Q, EP, Z.add_0_r. reflexivity.
Qed.

(** ** The loop *)
Lemma on_segment_F_R L e v w p : on_grid e v -> on_grid e w -> on_grid e p -> (-250 <= e <= 200)%Z ->
  @Segment2D_on_segment F (NumF L) (Segment2D_of_points v w) p = Segment2D_on_segment (Segment2D_of_points (rvec v) (rvec w)) (rvec p).
Proof.
  intros A B C He. unfold Segment2D_on_segment, Segment2D_of_points. cbn [s_origin s_terminal].
  assert (A' : on_grid e (Vector2D_of_vec v)) by exact A. assert (B' : on_grid e (Vector2D_of_vec w)) by exact B.
  rewrite (zero_F_R L e _ _ _ A' B' C He), (check_F_R L e (mkSeg (Vector2D_of_vec v) (Vector2D_of_vec w)) p A' B' C). reflexivity.
Qed.
Definition rpair (q : vec F * vec F) : vec R * vec R := (rvec (fst q), rvec (snd q)).
Lemma loop_F_R L e hl hl' p allow es inside : (-250 <= e <= 200)%Z -> on_grid e p ->
  (forall q, In q es -> on_grid e (fst q) /\ on_grid e (snd q) /\
     @Segment2D_exist_intersection_seg F (NumF L) hl (Segment2D_of_points (fst q) (snd q)) =
     Segment2D_exist_intersection_seg hl' (Segment2D_of_points (rvec (fst q)) (rvec (snd q)))) ->
  @contains_loop F (NumF L) hl p allow es inside = contains_loop hl' (rvec p) allow (map rpair es) inside.
Proof.
  intros He Gp. revert inside. induction es as [|[v w] es IH]; intros inside H; [reflexivity|].
  destruct (H (v, w) (or_introl eq_refl)) as (Gv & Gw & EX). cbn [fst snd] in *.
  assert (IH' : forall i, @contains_loop F (NumF L) hl p allow es i = contains_loop hl' (rvec p) allow (map rpair es) i) by (intros; apply IH; intros; apply H; cbn; auto).
  destruct (grid_fin _ _ Gp) as [Fp1 Fp2], (grid_fin _ _ Gv) as [Fv1 Fv2], (grid_fin _ _ Gw) as [Fw1 Fw2].
  change (map rpair ((v, w) :: es)) with ((rvec v, rvec w) :: map rpair es). cbn [contains_loop].
  rewrite (on_segment_F_R L e) by assumption. rewrite EX, (veq_F_R L e) by assumption. rewrite !IH'.
  cbn [neqb nltb NumF]. rewrite !eqb_F, !ltb_F by easy. reflexivity.
Qed.
Lemma loop_ext hl hl' (p : vec R) allow es inside :
  (forall q, In q es -> Segment2D_exist_intersection_seg hl (Segment2D_of_points (fst q) (snd q)) = Segment2D_exist_intersection_seg hl' (Segment2D_of_points (fst q) (snd q))) ->
  contains_loop hl p allow es inside = contains_loop hl' p allow es inside.
Proof.
  revert inside. induction es as [|[v w] es IH]; intros inside H; [reflexivity|]. cbn [contains_loop].
  pose proof (H (v, w) (or_introl eq_refl)) as E. cbn [fst snd] in E. rewrite E.
  assert (IH' : forall i, contains_loop hl p allow es i = contains_loop hl' p allow es i) by (intros; apply IH; intros; apply H; cbn; auto).
  now rewrite !IH'.
Qed.
(** the end of the half line does not matter once it is past the polygon *)
Lemma reach_indep (p v w : vec R) X X' : vx p <= X -> vx v <= X -> vx w <= X -> vx p <= X' -> vx v <= X' -> vx w <= X' ->
  Segment2D_exist_intersection_seg (mkSeg (Vector2D_of_vec p) (mkVec X (vy p) true)) (Segment2D_of_points v w) =
  Segment2D_exist_intersection_seg (mkSeg (Vector2D_of_vec p) (mkVec X' (vy p) true)) (Segment2D_of_points v w).
Proof.
  assert (G : forall X X', vx p <= X -> vx p <= X' -> vx v <= X' -> vx w <= X' ->
    Segment2D_exist_intersection_seg (mkSeg (Vector2D_of_vec p) (mkVec X (vy p) true)) (Segment2D_of_points v w) = true ->
    Segment2D_exist_intersection_seg (mkSeg (Vector2D_of_vec p) (mkVec X' (vy p) true)) (Segment2D_of_points v w) = true).
  { intros Y Y' H1 H2 H3 H4. rewrite !exist_intersection_seg_R. unfold spts. cbn [s_origin s_terminal Segment2D_of_points].
    intros (q & Q1 & Q2). exists q. split; [|exact Q2].
    replace (pt (mkVec Y (vy p) true)) with (px (pt p) + (Y - vx p), py (pt p)) in Q1 by (unfold pt; cbn; f_equal; ring).
    replace (pt (mkVec Y' (vy p) true)) with (px (pt p) + (Y' - vx p), py (pt p)) by (unfold pt; cbn; f_equal; ring).
    change (pt (Vector2D_of_vec p)) with (pt p) in *. apply horiz_seg in Q1; [|lra]. apply horiz_seg; [lra|].
    apply on_seg_bounds in Q2. destruct Q2 as [Q2 _]. unfold pt, px, py in *. cbn [fst snd vx vy Vector2D_of_vec V] in *.
    assert (Rmax (vx v) (vx w) <= Y') by (apply Rmax_lub; lra). lra. }
  intros. apply eq_true_iff_eq. split; apply G; assumption.
Qed.

(** On the grid the double answer is the ideal one. *)
Lemma contains_F_R L e vs p allow : (-250 <= e <= 200)%Z -> Forall (on_grid e) vs -> on_grid e p ->
  @Polygon2D_contains F (NumF L) vs p allow = Polygon2D_contains (map rvec vs) (rvec p) allow.
Proof.
  intros He G Gp. destruct vs as [|v0 [|v1 vs]].
  - reflexivity.
  - cbn [Polygon2D_contains map]. rewrite (veq_F_R L e) by (assumption || now inversion G). reflexivity.
  - set (l := v0 :: v1 :: vs) in *.
    assert (U : @Polygon2D_contains F (NumF L) l p allow = (bb <- @Polygon2D_get_bounding_box F (NumF L) l ;;
        if negb (@Rect2D_contains F (NumF L) bb p) then Ok false else hl <- @half_line F (NumF L) v0 p bb ;; Ok (@contains_loop F (NumF L) hl p allow (cyc_pairs l) false))%py) by reflexivity.
    assert (U' : Polygon2D_contains (map rvec l) (rvec p) allow = (bb <- Polygon2D_get_bounding_box (map rvec l) ;;
        if negb (Rect2D_contains bb (rvec p)) then Ok false else hl <- half_line (rvec v0) (rvec p) bb ;; Ok (contains_loop hl (rvec p) allow (cyc_pairs (map rvec l)) false))%py) by reflexivity.
    rewrite U, U'. clear U U'.
    destruct (bbox_F L e l G ltac:(discriminate) He) as (a & b & c & d & bbF & bbR & BD & -> & EBR & UA & UB & UC & UD & RA & RB & RC & RD). rewrite EBR. cbn [bind].
    assert (RCT : @Rect2D_contains F (NumF L) bbF p = Rect2D_contains bbR (rvec p)).
    { destruct (grid_fin _ _ Gp) as [Fp1 Fp2]. unfold Rect2D_contains. cbn [nleb NumF]. rewrite !leb_F by (assumption || apply UA || apply UB || apply UC || apply UD).
      rewrite (proj2 UA), (proj2 UB), (proj2 UC), (proj2 UD). rewrite RA, RB, RC, RD. reflexivity. }
    rewrite RCT. destruct (Rect2D_contains bbR (rvec p)) eqn:CT; [|reflexivity]. cbn [negb].
    assert (PIN : Rect2D_left bbR <= B2R (vx p) <= Rect2D_right bbR /\ Rect2D_top bbR <= B2R (vy p) <= Rect2D_bottom bbR).
    { revert CT. unfold Rect2D_contains. rnum. rewrite !andb_true_iff, !Rle_bool_iff. cbn [rvec vx vy]. tauto. }
    rewrite RA, RB, RC, RD in PIN.
    pose proof Gp as Gp'. destruct Gp' as (pn & pm & P1 & P2 & P3 & P4).
    assert (Gv0 : on_grid e v0) by now inversion G. destruct Gv0 as (n0 & m0 & V1 & V2 & V3 & V4).
    pose proof (bpow_gt_0 radix2 e) as Upos.
    assert (ZB : forall i j k x, units e i x -> IZR j * bpow radix2 e <= B2R x <= IZR k * bpow radix2 e -> (j <= i <= k)%Z).
    { intros i j k x [_ X] [H1 H2]. rewrite X in *. split; apply le_IZR; apply Rmult_le_reg_r with (bpow radix2 e); lra. }
    destruct PIN as [PX PY]. apply (ZB _ _ _ _ P3) in PX. apply (ZB _ _ _ _ P4) in PY.
    assert (VB : forall v, In v l -> exists n m, (Z.abs n <= 2 ^ 25)%Z /\ (Z.abs m <= 2 ^ 25)%Z /\ units e n (vx v) /\ units e m (vy v) /\ (a <= n <= b)%Z /\ (c <= m <= d)%Z).
    { intros v I. rewrite Forall_forall in G. destruct (G v I) as (n & m & Q1 & Q2 & Q3 & Q4). exists n, m. do 4 (split; [assumption|]).
      destruct (C67_bounding_box_R (map rvec l)) as (bb' & E1 & _ & HB & _); [discriminate|]. rewrite EBR in E1. injection E1 as <-.
      specialize (HB (rvec v) (in_map rvec l v I)). rewrite RA, RB, RC, RD in HB. cbn [rvec vx vy] in HB.
      split; [apply (ZB _ _ _ _ Q3)|apply (ZB _ _ _ _ Q4)]; lra. }
    destruct (half_F L e v0 p pn pm n0 m0 bbF a b c d He P1 P2 P3 P4 V1 V2 V3 V4 BD UA UB UC UD) as (x & -> & Fx & Bx & Dx). cbn [bind].
    unfold half_line. rewrite r_R. cbn [bind]. f_equal.
    assert (NN : 0 <= norm (pt (Vector2D_sub (rvec v0) (rvec p)))) by apply norm_nonneg. revert NN. generalize (norm (pt (Vector2D_sub (rvec v0) (rvec p)))). intros nr NN.
    assert (EP : cyc_pairs (map rvec l) = map rpair (cyc_pairs l)) by (rewrite !cyc_pairs_closed; apply closed_edges_map).
    rewrite EP.
    assert (HE : forall q, In q (cyc_pairs l) -> In (fst q) l /\ In (snd q) l) by (intros q; rewrite cyc_pairs_closed; apply in_closed).
    transitivity (contains_loop (mkSeg (Vector2D_of_vec (rvec p)) (mkVec (B2R x) (vy (rvec p)) true)) (rvec p) allow (map rpair (cyc_pairs l)) false).
    + apply (loop_F_R L e); [exact He|exact Gp|]. intros q Hq. destruct (HE q Hq) as [I1 I2].
      assert (G1 : on_grid e (fst q)) by (rewrite Forall_forall in G; now apply G). assert (G2 : on_grid e (snd q)) by (rewrite Forall_forall in G; now apply G).
      split; [exact G1|]. split; [exact G2|].
      destruct (Z.eq_dec (b - a + (d - c)) 0) as [WZ|WZ].
      * (* every vertex is p *)
        destruct (VB v0 (or_introl eq_refl)) as (n & m & _ & _ & Q3 & Q4 & Q5 & Q6).
        assert (UN : forall i j y, units e i y -> units e j y -> i = j). { intros i j y [_ A] [_ B]. apply eq_IZR. rewrite A in B. apply Rmult_eq_reg_r in B; lra. }
        assert (n = n0) by (apply (UN _ _ _ Q3 V3)). assert (m = m0) by (apply (UN _ _ _ Q4 V4)). subst n m.
        assert (EX : B2R x = B2R (vx p)) by (apply Dx; lia).
        assert (GE : on_grid e (mkVec x (vy p) true)). { exists pn, pm. cbn [vx vy]. do 2 (split; [assumption|]). split; [|assumption]. split; [assumption|]. rewrite EX. apply P3. }
        apply (exist_F_R L e (mkSeg (Vector2D_of_vec p) (mkVec x (vy p) true)) (Segment2D_of_points (fst q) (snd q))); assumption.
      * destruct (VB _ I1) as (n & m & Q1 & Q2 & Q3 & Q4 & Q5 & Q6). destruct (VB _ I2) as (n' & m' & Q1' & Q2' & Q3' & Q4' & Q5' & Q6').
        assert (N1 : near e pn (b - a + (d - c)) (Vector2D_of_vec (fst q)) n m) by (refine (conj Q1 (conj Q2 (conj Q3 (conj Q4 _)))); clear - Q5 Q6 PX PY WZ; lia).
        assert (N2 : near e pn (b - a + (d - c)) (Vector2D_of_vec (snd q)) n' m') by (refine (conj Q1' (conj Q2' (conj Q3' (conj Q4' _)))); clear - Q5' Q6' PX PY WZ; lia).
        assert (WW : (1 <= b - a + (d - c) <= 2 ^ 27)%Z) by (clear - BD WZ; lia).
        exact (exist_far L e (Vector2D_of_vec p) x pn pm (b - a + (d - c)) He P1 P2 P3 P4 WW Fx Bx (Vector2D_of_vec (fst q)) (Vector2D_of_vec (snd q)) n m n' m' N1 N2).
    + apply loop_ext. intros q Hq. apply in_map_iff in Hq. destruct Hq as (q' & <- & Hq). destruct (HE q' Hq) as [I1 I2].
      destruct (VB _ I1) as (n & m & Q1 & Q2 & Q3 & Q4 & Q5 & Q6). destruct (VB _ I2) as (n' & m' & Q1' & Q2' & Q3' & Q4' & Q5' & Q6').
      assert (BX : forall i y, units e i y -> (i <= b)%Z -> B2R y <= IZR b * bpow radix2 e) by (intros i y [_ ->] K; apply Rmult_le_compat_r; [lra|]; now apply IZR_le).
      assert (FR : IZR b * bpow radix2 e <= B2R x).
      { apply Rle_trans with (2 := proj1 Bx). apply Rmult_le_compat_r; [lra|]. apply IZR_le. clear - PX BD. lia. }
      pose proof (BX _ _ P3 ltac:(lia)). pose proof (BX _ _ Q3 ltac:(lia)). pose proof (BX _ _ Q3' ltac:(lia)).
      rewrite RA, RB, RC, RD. unfold Segment2D_of_points at 2. unfold V. rnum. cbn [vx vy Vector2D_of_vec V rpair fst snd].
      assert (BD' : IZR a * bpow radix2 e <= IZR b * bpow radix2 e /\ IZR c * bpow radix2 e <= IZR d * bpow radix2 e) by (split; (apply Rmult_le_compat_r; [lra|]; apply IZR_le; lia)).
      assert (PL : IZR a * bpow radix2 e <= B2R (vx p)) by (destruct P3 as [_ ->]; apply Rmult_le_compat_r; [lra|]; apply IZR_le; lia).
      apply (reach_indep (rvec p) (rvec (fst q')) (rvec (snd q'))); cbn [rvec vx vy]; destruct BD'; lra.
Qed.

(** ** C112 *)
(** Point in polygon in doubles: parity of crossings, as for ideal numbers. *)
Theorem C112_parity_F : forall (L : libm) (e : Z) (vs : list (vec F)) (p : vec F) (allow : bool) (n : nat),
  (-250 <= e <= 200)%Z -> Forall (on_grid e) vs -> on_grid e p ->
  let poly := map (fun v => pt (rvec v)) vs in
  ~ on_outline poly (pt (rvec p)) -> (allow = false -> forall q, In q (closed_edges poly) -> fst q <> snd q) ->
  count (crosses_right (pt (rvec p))) (closed_edges poly) n ->
  @Polygon2D_contains F (NumF L) vs p allow = Ok (Nat.odd n).
Proof.
  intros L e vs p allow n He G Gp poly NO ND HC. rewrite (contains_F_R L e) by assumption.
  assert (EP : poly = map pt (map rvec vs)) by (unfold poly; now rewrite map_map). rewrite EP in *. now apply C69_parity_R.
Qed.
Theorem C112_convex_F : forall (L : libm) (e : Z) (vs : list (vec F)) (p : vec F) (allow b : bool),
  (-250 <= e <= 200)%Z -> Forall (on_grid e) vs -> on_grid e p ->
  let poly := map (fun v => pt (rvec v)) vs in
  (2 <= List.length vs)%nat -> ~ on_outline poly (pt (rvec p)) ->
  @Polygon2D_contains F (NumF L) vs p allow = Ok b ->
  (strictly_convex poly -> (b = true <-> strictly_inside poly (pt (rvec p)))) /\
  (strictly_convex (rev poly) -> (b = true <-> strictly_inside (rev poly) (pt (rvec p)))).
Proof.
  intros L e vs p allow b He G Gp poly HL NO. rewrite (contains_F_R L e) by assumption.
  assert (EP : poly = map pt (map rvec vs)) by (unfold poly; now rewrite map_map). rewrite EP in *. apply C71_convex_R; [now rewrite map_length|exact NO].
Qed.
(** Every vertex of a grid polygon is contained when the boundary is allowed. *)
Theorem C112_vertices_F : forall (L : libm) (e : Z) (vs : list (vec F)) (v : vec F), (-250 <= e <= 200)%Z ->
  Forall (on_grid e) vs -> In v vs -> @Polygon2D_contains F (NumF L) vs v true = Ok true.
Proof.
  intros L e vs v He G I. rewrite (contains_F_R L e); [|exact He|exact G|rewrite Forall_forall in G; now apply G]. apply C70_vertices_R. now apply in_map.
Qed.

Theorem C112_closed_F : forall (L : libm) (e : Z) (vs : list (vec F)) (p : vec F) (n : nat),
  (-250 <= e <= 200)%Z -> Forall (on_grid e) vs -> on_grid e p ->
  let poly := map (fun v => pt (rvec v)) vs in
  count (crosses_right_closed (pt (rvec p))) (closed_edges poly) n ->
  exists b, @Polygon2D_contains F (NumF L) vs p true = Ok b /\ (b = true <-> In (pt (rvec p)) poly \/ Nat.odd n = true).
Proof.
  intros L e vs p n He G Gp poly HC. rewrite (contains_F_R L e) by assumption.
  assert (EP : poly = map pt (map rvec vs)) by (unfold poly; now rewrite map_map). rewrite EP in *. now apply C70_contains_R.
Qed.
Theorem C112_boundary_excluded_F : forall (L : libm) (e : Z) (vs : list (vec F)) (p : vec F),
  (-250 <= e <= 200)%Z -> Forall (on_grid e) vs -> on_grid e p ->
  on_outline (map (fun v => pt (rvec v)) vs) (pt (rvec p)) -> @Polygon2D_contains F (NumF L) vs p false = Ok false.
Proof.
  intros L e vs p He G Gp HO. rewrite (contains_F_R L e) by assumption.
  apply C70_boundary_excluded_R. now rewrite map_map.
Qed.
(** A concrete instance on the grid of halves: a square and a point inside. *)
Example C112_nonvacuous : let v := fun n m => mkVec (Fd n (-1)) (Fd m (-1)) true : vec F in
  let vs := [v 0 0; v 8 0; v 8 8; v 0 8]%Z in let p := v 2%Z 3%Z in let poly := map (fun v => pt (rvec v)) vs in
  Forall (on_grid (-1)) vs /\ on_grid (-1) p /\ ~ on_outline poly (pt (rvec p)) /\ strictly_convex poly /\ strictly_inside poly (pt (rvec p)) /\
  (forall q, In q (closed_edges poly) -> fst q <> snd q) /\ count (crosses_right (pt (rvec p))) (closed_edges poly) 1 /\
  on_outline poly (pt (rvec (v 4 0)%Z)).
Proof.
  intros v vs p poly.
  assert (V : forall n m, (Z.abs n < 2 ^ 53)%Z -> (Z.abs m < 2 ^ 53)%Z -> pt (rvec (v n m)) = (IZR n / 2, IZR m / 2)).
  { intros n m Hn Hm. unfold v, rvec, pt. cbn [vx vy]. rewrite !Fd_exact by lia. reflexivity. }
  assert (EP : poly = [(0, 0); (4, 0); (4, 4); (0, 4)]).
  { unfold poly, vs. cbn [map]. rewrite !V by lia. repeat (f_equal; try (apply point_eq; cbn; lra)). }
  assert (Ep : pt (rvec p) = (1, 3/2)). { unfold p. rewrite V by lia. apply point_eq; cbn; lra. }
  rewrite EP, Ep, V by lia. clear EP Ep poly.
  split; [repeat constructor; apply Fd_grid; lia|]. split; [apply Fd_grid; lia|]. cbn. split; [|split; [split|split; [|split; [|split]]]].
  - intros (q & He & (t & Ht & E)). cbn in He. unfold lerp, pt in *; cbn in *.
    destruct He as [<-|[<-|[<-|[<-|[]]]]]; cbn in E; injection E as E1 E2; unfold px, py in *; cbn in *; lra.
  - repeat constructor; cbn; intros K; repeat (destruct K as [K|K]; [injection K; lra|]); exact K.
  - intros a b w He Hv Na Nb. unfold pt in *; cbn in He, Hv.
    destruct He as [E|[E|[E|[E|[]]]]]; injection E as <- <-; destruct Hv as [<-|[<-|[<-|[<-|[]]]]]; try (exfalso; apply Na; reflexivity); try (exfalso; apply Nb; reflexivity); rewrite side_level; cbn; lra.
  - intros a b He. unfold pt in *; cbn in He. destruct He as [E|[E|[E|[E|[]]]]]; injection E as <- <-; rewrite side_level; cbn; lra.
  - intros q [<-|[<-|[<-|[<-|[]]]]]; cbn; intros K; injection K; lra.
  - apply count_no; [intros [K _]; cbn in K; lra|]. apply count_yes.
    { split; cbn; [lra|]. exists 4. split; [lra|]. exists (3/8). split; [lra|]. unfold lerp; apply point_eq; cbn; unfold px, py; cbn; lra. }
    apply count_no; [intros [K _]; cbn in K; lra|]. apply count_no; [|constructor].
    intros [_ (x & Hx & (t & Ht & E))]. unfold lerp, px, py in *. cbn in *. injection E as E1 E2. lra.
  - exists ((0, 0), (4, 0)). split; [cbn; auto|]. exists (1/2). split; [lra|]. apply point_eq; cbn; unfold px, py; cbn; lra.
Qed.

(** ** C113: triangles in doubles *)
Lemma outer_units L e a b p : on_grid e a -> on_grid e b -> on_grid e p -> (-250 <= e <= 200)%Z ->
  let o := @Vector2D_outer_product F (NumF L) (Vector2D_of_vec (@Vector2D_sub F (NumF L) a p)) (Vector2D_of_vec (@Vector2D_sub F (NumF L) b p)) in
  is_finite o = true /\ B2R o = Vector2D_outer_product (Vector2D_of_vec (Vector2D_sub (rvec a) (rvec p))) (Vector2D_of_vec (Vector2D_sub (rvec b) (rvec p))).
Proof.
  intros (ax & ay & A1 & A2 & A3 & A4) (bx & byy & B1 & B2 & B3 & B4) (cx & cy & C1 & C2 & C3 & C4) He.
  assert (SQ : forall n m n' m', (Z.abs n <= 2 ^ 25 -> Z.abs m <= 2 ^ 25 -> Z.abs n' <= 2 ^ 25 -> Z.abs m' <= 2 ^ 25 -> Z.abs ((n - m) * (n' - m')) <= 2 ^ 52)%Z).
  { intros. apply (zmul_bound _ _ (2 ^ 26) (2 ^ 26)); clear - H H0 H1 H2; lia. }
  pose proof (SQ ax cx byy cy A1 C1 B2 C2). pose proof (SQ ay cy bx cx A2 C2 B1 C1).
  assert (U : units (e + e) ((ax - cx) * (byy - cy) - (ay - cy) * (bx - cx))
     (@Vector2D_outer_product F (NumF L) (Vector2D_of_vec (@Vector2D_sub F (NumF L) a p)) (Vector2D_of_vec (@Vector2D_sub F (NumF L) b p)))).
  { unfold Vector2D_outer_product, Vector2D_of_vec, Vector2D_sub, V. cbn [vx vy nsub nmul NumF].
    apply units_sub; [apply units_mul; [apply units_sub| apply units_sub| |]|apply units_mul; [apply units_sub|apply units_sub| |]| |]; try assumption; lia. }
  destruct U as [U1 U2]. split; [exact U1|]. rewrite U2. unfold Vector2D_outer_product, Vector2D_of_vec, Vector2D_sub, V, rvec. cbn [vx vy]. rnum.
  rewrite (proj2 A3), (proj2 A4), (proj2 B3), (proj2 B4), (proj2 C3), (proj2 C4), bpow_plus, minus_IZR, !mult_IZR, !minus_IZR. ring.
Qed.
Lemma tri_F_R L e a b c p : on_grid e a -> on_grid e b -> on_grid e c -> on_grid e p -> (-250 <= e <= 200)%Z ->
  @tri_contains F (NumF L) a b c p = tri_contains (rvec a) (rvec b) (rvec c) (rvec p).
Proof.
  intros A B C P He. unfold tri_contains.
  destruct (outer_units L e a b p A B P He) as [F1 E1]. destruct (outer_units L e b c p B C P He) as [F2 E2]. destruct (outer_units L e c a p C A P He) as [F3 E3].
  destruct (F_of_Z_exact 0 eq_refl) as [Z1 Z2].
  assert (K : forall x y, is_finite x = true -> B2R x = y -> @nleb F (NumF L) (@nlit F (NumF L) 0 1) x = nleb (num 0) y /\ @nleb F (NumF L) x (@nlit F (NumF L) 0 1) = nleb y (num 0)).
  { intros x y Fx <-. rewrite num0_F. cbn [nleb NumF]. rewrite !leb_F by assumption. rewrite Z1. rnum. split; f_equal; rnum; lra. }
  destruct (K _ _ F1 E1) as [-> ->]. destruct (K _ _ F2 E2) as [-> ->]. destruct (K _ _ F3 E3) as [-> ->]. reflexivity.
Qed.
Theorem C113_contains_F : forall (L : libm) (e : Z) (a b c p : vec F), (-250 <= e <= 200)%Z ->
  on_grid e a -> on_grid e b -> on_grid e c -> on_grid e p -> ~ collinear (pt (rvec a)) (pt (rvec b)) (pt (rvec c)) ->
  (@Triangle2D_contains F (NumF L) (Triangle2D_of_points a b c) p = true <-> in_triangle (pt (rvec a)) (pt (rvec b)) (pt (rvec c)) (pt (rvec p))).
Proof.
  intros L e a b c p He A B C P NC. unfold Triangle2D_contains, Triangle2D_of_points. cbn [t_a t_b t_c].
  rewrite (tri_F_R L e) by assumption. destruct (C43_contains_R (rvec a) (rvec b) (rvec c) (rvec p)) as (_ & H & _). exact (H NC).
Qed.
(** the signed area is the exact one, so orientation is decided exactly *)
Theorem C113_area_F : forall (L : libm) (e : Z) (a b c : vec F), (-250 <= e <= 200)%Z -> on_grid e a -> on_grid e b -> on_grid e c ->
  let A := cross (psub (pt (rvec b)) (pt (rvec a))) (psub (pt (rvec c)) (pt (rvec a))) in
  B2R (@Triangle2D_double_signed_area F (NumF L) (Triangle2D_of_points a b c)) = A /\
  B2R (@Triangle2D_signed_area F (NumF L) (Triangle2D_of_points a b c)) = A / 2 /\
  B2R (@Triangle2D_area F (NumF L) (Triangle2D_of_points a b c)) = Rabs A / 2 /\
  (@Triangle2D_ccw F (NumF L) (Triangle2D_of_points a b c) = true <-> A > 0).
Proof.
  intros L e a b c He GA GB GC A.
  destruct (area_units L e a b c GA GB GC ltac:(lia)) as (N & N1 & N2 & N3).
  assert (EA : double_signed_area_st (rvec a) (rvec b) (rvec c) = A).
  { unfold A, double_signed_area_st, cross, psub, pt, rvec. rnum. cbn. ring. }
  assert (HN : IZR N * bpow radix2 (e + e) = A) by (rewrite <- N3; exact EA).
  assert (HF : units (-1) 1 (@nlit F (NumF L) 1 2)).
  { split; [vm_compute; reflexivity|]. vm_compute. lra. }
  assert (HH : forall x M, units (e + e) M x -> (Z.abs M <= 2 ^ 53)%Z -> B2R (Bmult mode_NE x (@nlit F (NumF L) 1 2)) = IZR M * bpow radix2 (e + e) / 2).
  { intros x M X HM. assert (U : units (e + e + -1) (M * 1) (Bmult mode_NE x (@nlit F (NumF L) 1 2))) by (apply units_mul; try assumption; lia).
    destruct U as [_ ->]. rewrite bpow_plus, Z.mul_1_r. change (bpow radix2 (-1)) with (/ 2). unfold Rdiv. ring. }
  unfold Triangle2D_double_signed_area, Triangle2D_signed_area, Triangle2D_ccw, tri_ccw, signed_area_st, Triangle2D_of_points, Triangle2D_area. cbn [t_a t_b t_c].
  split; [rewrite <- HN; apply N2|]. split; [rewrite <- HN; now apply HH|]. split.
  - destruct (outer_units L e b c a GB GC GA He) as [F1 E1].
    change (@Vector2D_outer_product F (NumF L) (Vector2D_of_vec (@Vector2D_sub F (NumF L) b a)) (Vector2D_of_vec (@Vector2D_sub F (NumF L) c a))) with
      (@Vector2D_outer_product F (NumF L) (@Vector2D_sub F (NumF L) b a) (@Vector2D_sub F (NumF L) c a)) in F1, E1.
    set (o := @Vector2D_outer_product F (NumF L) (@Vector2D_sub F (NumF L) b a) (@Vector2D_sub F (NumF L) c a)) in *.
    assert (E2 : B2R o = A) by (rewrite E1; unfold A, Vector2D_outer_product, Vector2D_of_vec, Vector2D_sub, V, cross, psub, pt, rvec; rnum; cbn; ring).
    cbn [nmul nabs NumF]. destruct (F_abs o) as [A1 A2].
    rewrite (HH _ (Z.abs N)); [rewrite <- HN, Rabs_mult, <- abs_IZR, (Rabs_pos_eq (bpow _ _)) by apply bpow_ge_0; reflexivity| |lia].
    refine (conj (eq_trans A2 F1) (eq_trans A1 _)). rewrite E2, <- HN, Rabs_mult, <- abs_IZR, (Rabs_pos_eq (bpow _ _)) by apply bpow_ge_0. reflexivity.
  - change (Vector2D_of_vec a) with (mkVec (vx a) (vy a) true). change (@double_signed_area_st F (NumF L) _ _ _) with (@double_signed_area_st F (NumF L) a b c).
    destruct N2 as [M1 M2]. revert M1 M2. generalize (@double_signed_area_st F (NumF L) a b c). intros o M1 M2.
    rewrite num0_F. cbn [nltb NumF]. destruct (F_of_Z_exact 0 eq_refl) as [Z1 Z2]. rewrite ltb_F by easy. rewrite Z1, M2, HN, Rlt_bool_iff. lra.
Qed.
Example C113_nonvacuous : let v := fun n m => mkVec (Fd n (-1)) (Fd m (-1)) true : vec F in
  on_grid (-1) (v 0 0)%Z /\ on_grid (-1) (v 8 0)%Z /\ on_grid (-1) (v 0 8)%Z /\ on_grid (-1) (v 2 3)%Z /\
  ~ collinear (pt (rvec (v 0 0)%Z)) (pt (rvec (v 8 0)%Z)) (pt (rvec (v 0 8)%Z)).
Proof.
  intros v. repeat (split; [apply Fd_grid; lia|]). unfold v, collinear, cross, psub, pt, rvec. cbn [vx vy]. rewrite !Fd_exact by lia. cbn. lra.
Qed.
