(** * P_CutRayF: where a ray cuts a rectangle or a triangle, in doubles (C179) *)
From Coq Require Import ZArith List Bool String Reals Lra Lia Psatz.
From Flocq Require Import Core BinarySingleNaN.
From Verif Require Import Base Types NumR NumF R_Tac Spec Spec2 Abs M_Angle M_Vector M_Line M_Segment M_Ray M_Circle M_Rect M_Triangle M_Triangle2
  L_Angle P_Vector P_Line L_Float P_Float P_AngleF P_Robust P_Hull2 P_VecF P_TrigF P_LineF P_MatF P_CircF P_CircF2 P_RayF P_SegF2 P_Rect P_CutF P_TriF P_CircF3.
Import ListNotations.
Local Open Scope R_scope.

(** ** Specification *)
(** The place [s] (signed distance along the line of the ray from [o] towards [deg]
    degrees) where that line cuts the side from a to b, along which the coordinate [f]
    runs from [lo] to [hi]: at least [m] away from the ends of the side; or [None]: the
    two are (almost) parallel or cut clearly outside the side.  [m] bounds the error of
    the computed cut. *)
Definition ray_cuts (k : Z) (m : R) (f : point -> R) (lo hi : R) (a b o : point) (deg : R) (x : option R) : Prop :=
  let D := Rabs (cross (psub b a) (cos (rad deg), sin (rad deg))) in
  match x with
  | Some s => let q := ray_at o deg s in
      on_line2 a b q /\ lo + m <= f q <= hi - m /\ bpow radix2 (k - 42) <= D /\ 2 / 999999 <= D /\ bpow radix2 (2 * k - 42) / D <= m
  | None => D + 9 * bpow radix2 (k - 48) < 1 / 1000001 \/
      exists (n : Z) (s : R), let q := ray_at o deg s in (k <= n <= 500)%Z /\ on_line2 a b q /\ Rabs (px q) <= bpow radix2 n /\ Rabs (py q) <= bpow radix2 n /\
        bpow radix2 (k - 42) <= D /\ 2 / 999999 <= D /\ (f q < lo - bpow radix2 (n + k - 42) / D \/ hi + bpow radix2 (n + k - 42) / D < f q)
  end.
(** The same for a segment that need not be parallel to an axis. *)
Definition ray_meets (k : Z) (m : R) (a b o : point) (deg : R) (x : option R) : Prop :=
  let D := Rabs (cross (psub b a) (cos (rad deg), sin (rad deg))) in
  match x with
  | Some s => let q := ray_at o deg s in
      on_seg a b q /\ clear_of_ends m a b q /\ bpow radix2 (k - 42) <= D /\ 2 / 999999 <= D /\ bpow radix2 (2 * k - 42) / D <= m
  | None => D + 9 * bpow radix2 (k - 48) < 1 / 1000001 \/
      exists (n : Z) (s : R), let q := ray_at o deg s in (k <= n <= 300)%Z /\ on_line2 a b q /\ Rabs (px q) <= bpow radix2 n /\ Rabs (py q) <= bpow radix2 n /\
        bpow radix2 (k - 42) <= D /\ 2 / 999999 <= D /\ beyond_box (bpow radix2 (n + k - 42) / D + / 31000) q a b
  end.
Definition places (xs : list (option R)) : list R := flat_map (fun x => match x with Some s => [s] | None => [] end) xs.

(** ** The line of the ray and the line of a side *)
Definition rline (k : Z) (o : point) (deg : R) (l : line F) : Prop :=
  lclose2 48 0 k (- sin (rad deg)) (cos (rad deg)) (sin (rad deg) * px o - cos (rad deg) * py o) l.
Lemma ray_cut L k n a b o deg l s : (-200 <= k <= 200)%Z -> (k <= n <= 500)%Z -> within k a -> within k b -> rline k o deg l ->
  let D := Rabs (cross (psub (fpt b) (fpt a)) (cos (rad deg), sin (rad deg))) in let q := ray_at o deg s in
  bpow radix2 (k - 42) <= D -> 2 / 999999 <= D -> on_line2 (fpt a) (fpt b) q -> Rabs (px q) <= bpow radix2 n -> Rabs (py q) <= bpow radix2 n ->
  exists v, @Line2D_intersection F (NumF L) (@Line2D_of_points F (NumF L) a b) l = Ok v /\ v_valid v = true /\ is_finite (vx v) = true /\ is_finite (vy v) = true /\
    Rabs (px (fpt v) - px q) <= bpow radix2 (n + k - 42) / D /\ Rabs (py (fpt v) - py q) <= bpow radix2 (n + k - 42) / D.
Proof.
  intros Hk Hn WA WB LC D q D1 D2 O QX QY. pose proof (lclose2_of _ _ _ _ _ (lclose_points L k a b Hk WA WB)) as LS.
  match type of LS with lclose2 _ _ _ ?A ?B _ _ => assert (E : A * cos (rad deg) - B * - sin (rad deg) = cross (psub (fpt b) (fpt a)) (cos (rad deg), sin (rad deg))) by (unfold cross, psub, px, py; cbn [fst snd]; ring) end.
  destruct (inter2 L 48 k 0 k n _ l _ _ _ _ _ _ q ltac:(lia) Hk ltac:(lia) Hk Hn LS LC) as (v & V); try assumption.
  - rewrite E. replace (k + 0 - 48 + 6)%Z with (k - 42)%Z by lia. exact D1.
  - rewrite E. exact D2.
  - now apply on_line2_coef.
  - apply ray_at_line.
  - rewrite E in V. replace (n + k + 0 - 48 + 6)%Z with (n + k - 42)%Z in V by lia. exists v. exact V.
Qed.
Lemma ray_miss L k a b o deg l : (-200 <= k <= 200)%Z -> within k a -> within k b -> rline k o deg l ->
  Rabs (cross (psub (fpt b) (fpt a)) (cos (rad deg), sin (rad deg))) + 9 * bpow radix2 (k - 48) < 1 / 1000001 ->
  @Line2D_intersection F (NumF L) (@Line2D_of_points F (NumF L) a b) l = Ok (@Vector2D_invalid F (NumF L)).
Proof.
  intros Hk WA WB LC H. pose proof (lclose2_of _ _ _ _ _ (lclose_points L k a b Hk WA WB)) as LS.
  apply (inter2_none L 48 k 0 k _ l _ _ _ _ _ _ ltac:(lia) Hk ltac:(lia) LS LC). replace (k + 0 - 48)%Z with (k - 48)%Z by lia.
  match type of LS with lclose2 _ _ _ ?A ?B _ _ => replace (A * cos (rad deg) - B * - sin (rad deg)) with (cross (psub (fpt b) (fpt a)) (cos (rad deg), sin (rad deg))) by (unfold cross, psub, px, py; cbn [fst snd]; ring) end.
  exact H.
Qed.
Lemma over_D n k D : 0 < D -> bpow radix2 (k - 42) <= D -> bpow radix2 (n + k - 42) / D <= bpow radix2 n.
Proof.
  intros PD H. apply Rmult_le_reg_r with D; [exact PD|]. unfold Rdiv. rewrite Rmult_assoc, Rinv_l, Rmult_1_r by lra. replace (n + k - 42)%Z with (n + (k - 42))%Z by lia. rewrite bpow_plus. apply Rmult_le_compat_l; [apply bpow_ge_0|exact H].
Qed.
Lemma within_near n v q e : e <= bpow radix2 n -> is_finite (vx v) = true -> is_finite (vy v) = true -> Rabs (px q) <= bpow radix2 n -> Rabs (py q) <= bpow radix2 n ->
  Rabs (px (fpt v) - px q) <= e -> Rabs (py (fpt v) - py q) <= e -> within (n + 1) v.
Proof.
  intros E V1 V2 QX QY V3 V4. split; [exact V1|]. split; [exact V2|]. rewrite Z.add_comm, bp2. unfold fpt, px, py in V3, V4. cbn [fst snd] in V3, V4. fold (px q) in V3. fold (py q) in V4. apply Rabs_le_inv in V3, V4, QX, QY. split; apply Rabs_le; lra.
Qed.
Lemma ray_side L k m (f : point -> R) (g : vec F -> F) (lo hi : F) (a b : vec F) o deg l x : (-200 <= k <= 200)%Z -> within k a -> within k b -> rline k o deg l ->
  is_finite lo = true -> is_finite hi = true -> ((f = px /\ g = @vx F /\ vy a = vy b) \/ (f = py /\ g = @vy F /\ vx a = vx b)) ->
  Rabs (B2R lo) <= bpow radix2 k -> Rabs (B2R hi) <= bpow radix2 k ->
  ray_cuts k m f (B2R lo) (B2R hi) (fpt a) (fpt b) o deg x ->
  (exists v, @Line2D_intersection F (NumF L) (@Line2D_of_points F (NumF L) a b) l = Ok v /\ side_found k m g lo hi v (option_map (ray_at o deg) x)) /\
  (forall s, x = Some s -> 0 < m /\ Rabs (px (ray_at o deg s)) <= bpow radix2 k /\ Rabs (py (ray_at o deg s)) <= bpow radix2 k).
Proof.
  intros Hk WA WB LC Flo Fhi FG BL BH C. unfold ray_cuts in C. set (D := Rabs _) in C.
  assert (FV : forall v, f (fpt v) = B2R (g v)) by (intros v; destruct FG as [(-> & -> & _)|(-> & -> & _)]; reflexivity).
  assert (GF : forall v, is_finite (vx v) = true -> is_finite (vy v) = true -> is_finite (g v) = true) by (intros v X Y; destruct FG as [(_ & -> & _)|(_ & -> & _)]; assumption).
  assert (GE : forall v q e, Rabs (px (fpt v) - px q) <= e -> Rabs (py (fpt v) - py q) <= e -> Rabs (B2R (g v) - f q) <= e) by (intros v q e X Y; rewrite <- FV; destruct FG as [(-> & _)|(-> & _)]; assumption).
  destruct x as [s|]; cbn [option_map side_found].
  - set (q := ray_at o deg s) in *. cbv zeta in C. destruct C as (O1 & [F1 F2] & D1 & D2 & E).
    assert (PD : 0 < D) by lra. assert (PM : 0 < m) by (apply Rlt_le_trans with (2 := E); apply Rdiv_lt_0_compat; [apply bpow_gt_0|exact PD]).
    assert (QB : Rabs (px q) <= bpow radix2 k /\ Rabs (py q) <= bpow radix2 k).
    { destruct O1 as (t & O1). rewrite O1 in *. clear O1. destruct WA as (_ & _ & A3 & A4). unfold lerp, px, py, fpt in *. apply Rabs_le_inv in BL, BH.
      destruct FG as [(-> & -> & EY)|(-> & -> & EX)]; cbn [fst snd] in *; [rewrite EY in *|rewrite EX in *]; cbn [fst snd px py] in *; split;
        first [ apply Rabs_le; lra | match goal with |- Rabs ?x <= _ => match type of A3 with Rabs ?z <= _ => replace x with z by ring; assumption end end | match goal with |- Rabs ?x <= _ => match type of A4 with Rabs ?z <= _ => replace x with z by ring; assumption end end ]. }
    destruct QB as [QX QY]. split; [|intros s' [= <-]; fold q; repeat split; assumption].
    destruct (ray_cut L k k a b o deg l s Hk ltac:(lia) WA WB LC D1 D2 O1 QX QY) as (v & V & V0 & V1 & V2 & V3 & V4). fold D q in V3, V4. 
    pose proof (over_D k k D PD D1) as MK. replace (k + k - 42)%Z with (2 * k - 42)%Z in V3, V4, MK by lia.
    exists v. split; [exact V|]. rewrite V0. pose proof (GE v q _ V3 V4) as GQ.
    rewrite !leb_F by auto. apply Rabs_le_inv in GQ. rewrite !Rle_bool_true by lra. split; [reflexivity|].
    split; [split; [exact V0|split; [exact V1|split; [exact V2|split; eapply Rle_trans; try exact E; assumption]]]|].
    exact (within_near k v q _ MK V1 V2 QX QY V3 V4).
  - split; [|intros s [=]]. destruct C as [C|(n & s & Hn & O1 & QX & QY & D1 & D2 & C)].
    + exists (@Vector2D_invalid F (NumF L)). split; [exact (ray_miss L k a b o deg l Hk WA WB LC C)|]. reflexivity.
    + set (q := ray_at o deg s) in *. destruct (ray_cut L k n a b o deg l s Hk Hn WA WB LC D1 D2 O1 QX QY) as (v & V & V0 & V1 & V2 & V3 & V4). fold D q in V3, V4.
      exists v. split; [exact V|]. rewrite V0. pose proof (GE v q _ V3 V4) as GQ. set (e := bpow radix2 (n + k - 42) / D) in *.
      rewrite !leb_F by auto. apply Rabs_le_inv in GQ. destruct C as [C|C]; [rewrite (Rle_bool_false (B2R lo)) by lra|rewrite (Rle_bool_false _ (B2R hi)) by lra; rewrite andb_comm]; reflexivity.
Qed.

(** ** The places clearly in front of the origin *)
Lemma hits_places o deg xs : hits (List.map (option_map (ray_at o deg)) xs) = List.map (ray_at o deg) (places xs).
Proof. induction xs as [|[s|] xs IH]; cbn; [reflexivity|f_equal; exact IH|exact IH]. Qed.
Lemma ray_col o deg a b c : (exists s, a = ray_at o deg s) -> (exists s, b = ray_at o deg s) -> (exists s, c = ray_at o deg s) -> (px c - px a) * (py b - py a) = (py c - py a) * (px b - px a).
Proof. intros [s ->] [t ->] [w ->]. unfold ray_at, px, py. cbn [fst snd]. ring. Qed.
Lemma faced L (r : ray F) k m s v : (-200 <= k <= 200)%Z -> atan2_accurate L -> within k (ray_origin r) -> good_degree (a_degree (ray_dir r)) ->
  let q := ray_at (fpt (ray_origin r)) (B2R (a_degree (ray_dir r))) s in Rabs (px q) <= bpow radix2 k -> Rabs (py q) <= bpow radix2 k -> coords_near m v q ->
  (bpow radix2 (-17) <= s -> 256 * m <= s -> @Ray2D_in_right_dir_thr F (NumF L) r v (@nlit F (NumF L) 1 1) = Ok true) /\
  (s <= - bpow radix2 (-17) -> s <= - (256 * m) -> @Ray2D_in_right_dir_thr F (NumF L) r v (@nlit F (NumF L) 1 1) = Ok false).
Proof.
  intros Hk AT (O1 & O2 & O3 & O4) G q QX QY (Q1 & Q2 & Q3 & Q4). pose proof (bpow_gt_0 radix2 (-17)) as P17.
  assert (BD : Rabs s <= bpow radix2 498) by (exact (ray_at_bound (fpt (ray_origin r)) _ s k k ltac:(lia) O3 O4 QX QY)). split; intros X1 X2.
  - apply (ahead1 L r v s m AT O1 O2 Q1 Q2 G Q3 Q4); [split; [rewrite Rabs_pos_eq; lra|exact BD]|rewrite Rabs_pos_eq; lra|lra].
  - apply (ahead1 L r v s m AT O1 O2 Q1 Q2 G Q3 Q4); [split; [rewrite Rabs_left; lra|exact BD]|rewrite Rabs_left; lra|lra].
Qed.

(** ** A rectangle and a ray *)
(** Rect2D.intersection(ray) in doubles: the cuts of the line of the ray that are clearly in front
    of its origin, in the order left, right, top, bottom side; two points closer than 1e-6 may be
    reported as one. *)
Theorem C179_rect_ray_F : forall (L : libm) (k : Z) (m : R) (r : rect F) (ry : ray F) (xl xr xt xb : option R), (-200 <= k <= 200)%Z -> trig_accurate L -> atan2_accurate L ->
  within k (@Rect2D_top_left F r) -> within k (@Rect2D_bottom_right F (NumF L) r) -> within k (ray_origin ry) -> good_degree (a_degree (ray_dir ry)) ->
  let tl := fpt (@Rect2D_top_left F r) in let tr := fpt (@Rect2D_top_right F (NumF L) r) in let bl := fpt (@Rect2D_bottom_left F (NumF L) r) in let br := fpt (@Rect2D_bottom_right F (NumF L) r) in
  let o := fpt (ray_origin ry) in let deg := B2R (a_degree (ray_dir ry)) in
  ray_cuts k m py (py tl) (py br) tl bl o deg xl -> ray_cuts k m py (py tl) (py br) tr br o deg xr ->
  ray_cuts k m px (px tl) (px br) tl tr o deg xt -> ray_cuts k m px (px tl) (px br) bl br o deg xb ->
  let S := places [xl; xr; xt; xb] in (List.length S <= 2)%nat /\
  forall K, facing m S K -> reported m (@Rect2D_intersection F (NumF L) r (VRay ry)) (List.map (ray_at o deg) K).
Proof.
  intros L k m r ry xl xr xt xb Hk TA AT WTL WBR WO G tl tr bl br o deg CL CR CT CB S.
  destruct (lclose2_angle L k (ray_origin ry) (AA (ray_dir ry)) Hk TA WO G) as (l & El & LC). cbn [arg_F] in LC. fold deg o in LC. change (rline k o deg l) in LC.
  destruct WTL as (X1 & Y1 & X2 & Y2). destruct WBR as (X3 & Y3 & X4 & Y4).
  set (le := @Rect2D_left F r). set (ri := @Rect2D_right F (NumF L) r). set (to := @Rect2D_top F r). set (bo := @Rect2D_bottom F (NumF L) r).
  change (vx (@Rect2D_top_left F r)) with le in *. change (vy (@Rect2D_top_left F r)) with to in *. change (vx (@Rect2D_bottom_right F (NumF L) r)) with ri in *. change (vy (@Rect2D_bottom_right F (NumF L) r)) with bo in *.
  assert (WTL : within k (@Rect2D_top_left F r)) by (repeat split; assumption). assert (WBR : within k (@Rect2D_bottom_right F (NumF L) r)) by (repeat split; assumption).
  assert (WTR : within k (@Rect2D_top_right F (NumF L) r)) by (repeat split; assumption). assert (WBL : within k (@Rect2D_bottom_left F (NumF L) r)) by (repeat split; assumption).
  change (py tl) with (B2R to) in *. change (py br) with (B2R bo) in *. change (px tl) with (B2R le) in *. change (px br) with (B2R ri) in *.
  destruct (ray_side L k m py (@vy F) to bo _ _ o deg l xl Hk WTL WBL LC Y1 Y3 ltac:(right; repeat split; reflexivity) Y2 Y4 CL) as [PL QL].
  destruct (ray_side L k m py (@vy F) to bo _ _ o deg l xr Hk WTR WBR LC Y1 Y3 ltac:(right; repeat split; reflexivity) Y2 Y4 CR) as [PR QR].
  destruct (ray_side L k m px (@vx F) le ri _ _ o deg l xt Hk WTL WTR LC X1 X3 ltac:(left; repeat split; reflexivity) X2 X4 CT) as [PT QT].
  destruct (ray_side L k m px (@vx F) le ri _ _ o deg l xb Hk WBL WBR LC X1 X3 ltac:(left; repeat split; reflexivity) X2 X4 CB) as [PB QB].
  destruct (rect_any_core L k m r l (fun x => exists s, x = ray_at o deg s) _ _ _ _ Hk (ray_col o deg) PL PR PT PB) as [LEN (vs & FA & RES)].
  { fold le ri to bo. intros q E. destruct xl as [s|]; [|discriminate E]. injection E as <-. destruct (QL _ eq_refl) as (PM & _). destruct CL as ((t & CL) & FQ & _). split; [rewrite CL; unfold lerp, px; cbn [fst]; change (fst tl) with (B2R le); change (fst bl) with (B2R le); ring|]. split; [lra|now exists s]. }
  { fold le ri to bo. intros q E. destruct xr as [s|]; [|discriminate E]. injection E as <-. destruct (QR _ eq_refl) as (PM & _). destruct CR as ((t & CR) & FQ & _). split; [rewrite CR; unfold lerp, px; cbn [fst]; change (fst tr) with (B2R ri); change (fst br) with (B2R ri); ring|]. split; [lra|now exists s]. }
  { fold le ri to bo. intros q E. destruct xt as [s|]; [|discriminate E]. injection E as <-. destruct (QT _ eq_refl) as (PM & _). destruct CT as ((t & CT) & FQ & _). split; [rewrite CT; unfold lerp, py; cbn [snd]; change (snd tl) with (B2R to); change (snd tr) with (B2R to); ring|]. split; [lra|now exists s]. }
  { fold le ri to bo. intros q E. destruct xb as [s|]; [|discriminate E]. injection E as <-. destruct (QB _ eq_refl) as (PM & _). destruct CB as ((t & CB) & FQ & _). split; [rewrite CB; unfold lerp, py; cbn [snd]; change (snd bl) with (B2R bo); change (snd br) with (B2R bo); ring|]. split; [lra|now exists s]. }
  change [option_map (ray_at o deg) xl; option_map (ray_at o deg) xr; option_map (ray_at o deg) xt; option_map (ray_at o deg) xb] with (List.map (option_map (ray_at o deg)) [xl; xr; xt; xb]) in LEN, FA. rewrite hits_places in LEN, FA. fold S in LEN, FA. rewrite map_length in LEN.
  split; [exact LEN|]. intros K KK.
  assert (IN : forall s, In s S -> 0 < m /\ Rabs (px (ray_at o deg s)) <= bpow radix2 k /\ Rabs (py (ray_at o deg s)) <= bpow radix2 k).
  { intros s I. unfold S, places in I. apply in_flat_map in I. destruct I as (x & I & J). destruct x as [y|]; [|destruct J]. destruct J as [->|[]]. destruct I as [I|[I|[I|[I|[]]]]]; [apply QL|apply QR|apply QT|apply QB]; exact I. }
  assert (RR : @Rect2D_intersection F (NumF L) r (VRay ry) = bind (@Rect2D_intersection F (NumF L) r (VLine l)) (filter_sols (fun q => @Ray2D_in_right_dir_thr F (NumF L) ry q (@nlit F (NumF L) 1 1)))).
  { cbn [Rect2D_intersection]. unfold Rect2D_intersection_ray, Ray2D_line. rewrite El. reflexivity. }
  rewrite RR. clear RR CL CR CT CB PL PR PT PB QL QR QT QB LC El. clearbody S.
  assert (AH : forall s v, In s S -> hit_at k m v (ray_at o deg s) -> _) by (intros s v I [[_ H] _]; destruct (IN s I) as (_ & I1 & I2); exact (faced L ry k m s v Hk AT WO G I1 I2 H)).
  pose proof (bpow_gt_0 radix2 (-17)) as P17. assert (B16 : bpow radix2 (-16) = 2 * bpow radix2 (-17)) by (change (-16)%Z with (1 + -17)%Z; apply bp2).
  destruct S as [|s [|t [|? ?]]]; [| | |cbn [List.length] in LEN; lia].
  - inversion KK; subst. inversion FA; subst. cbn [List.map]. destruct RES as [RES|(v & w & E & _)]; [|discriminate E]. rewrite RES. exists []. split; [constructor|left; reflexivity].
  - inversion FA as [|v ? ? ? H1 FA']; subst. inversion FA'; subst. destruct RES as [RES|(v' & w & E & _)]; [|discriminate E]. rewrite RES. cbn [bind filter_sols]. destruct (AH s v (or_introl eq_refl) H1) as [A1 A2].
    inversion KK as [|q' qs' K' I1 I2 KK' Q1 Q2|q' qs' K' I1 I2 KK' Q1 Q2]; subst; inversion KK'; subst; cbn [List.map].
    + rewrite (A1 I1 I2). exists [v]. split; [constructor; [exact (proj1 H1)|constructor]|left; reflexivity].
    + rewrite (A2 I1 I2). exists []. split; [constructor|left; reflexivity].
  - inversion FA as [|v ? ? ? H1 FA']; subst. inversion FA' as [|w ? ? ? H2 FA'']; subst. inversion FA''; subst.
    destruct (AH s v (or_introl eq_refl) H1) as [A1 A2]. destruct (AH t w (or_intror (or_introl eq_refl)) H2) as [B1 B2].
    destruct (IN s (or_introl eq_refl)) as (PM & _).
    assert (FAR : weakly_near v w -> bpow radix2 (-17) <= t -> 256 * m <= t -> s <= - bpow radix2 (-17) -> s <= - (256 * m) -> False).
    { intros WN Z1 Z2 Z3 Z4. destruct H1 as [[_ H1] _], H2 as [[_ H2] _]. apply (apart_ray o deg s t m v w H1 H2 WN); rewrite Rabs_left by lra; lra. }
    inversion KK as [|q' qs' K' I1 I2 KK' Q1 Q2|q' qs' K' I1 I2 KK' Q1 Q2]; subst; inversion KK' as [|q' qs' K'' J1 J2 KK'' Q1 Q2|q' qs' K'' J1 J2 KK'' Q1 Q2]; subst; inversion KK''; subst; cbn [List.map];
      (destruct RES as [RES|(v' & w' & E & RES & WN)]; [|injection E as <- <-]; rewrite RES; cbn [bind filter_sols]).
    + rewrite (B1 J1 J2). cbn [bind negb]. rewrite (A1 I1 I2). exists [v; w]. split; [constructor; [exact (proj1 H1)|constructor; [exact (proj1 H2)|constructor]]|left; reflexivity].
    + rewrite (A1 I1 I2). exists [v; w]. split; [constructor; [exact (proj1 H1)|constructor; [exact (proj1 H2)|constructor]]|right; exists v, w; split; [reflexivity|split; [reflexivity|exact WN]]].
    + rewrite (B2 J1 J2). cbn [bind negb]. rewrite (A1 I1 I2). exists [v]. split; [constructor; [exact (proj1 H1)|constructor]|left; reflexivity].
    + rewrite (A1 I1 I2). exists [v]. split; [constructor; [exact (proj1 H1)|constructor]|left; reflexivity].
    + rewrite (B1 J1 J2). cbn [bind negb]. rewrite (A2 I1 I2). exists [w]. split; [constructor; [exact (proj1 H2)|constructor]|left; reflexivity].
    + exfalso. exact (FAR WN J1 J2 I1 I2).
    + rewrite (B2 J1 J2). cbn [bind negb]. rewrite (A2 I1 I2). exists []. split; [constructor|left; reflexivity].
    + rewrite (A2 I1 I2). exists []. split; [constructor|left; reflexivity].
Qed.

(** ** A triangle and a ray *)
Lemma ray_seg L k m (s : seg F) o deg l x : (-200 <= k <= 200)%Z -> m <= / 32768 -> within k (s_origin s) -> within k (s_terminal s) -> rline k o deg l ->
  ray_meets k m (fpt (s_origin s)) (fpt (s_terminal s)) o deg x ->
  (exists v, @Segment2D_intersection_line F (NumF L) s l = Ok v /\ answers m v (option_map (ray_at o deg) x) /\ (option_map (ray_at o deg) x <> None -> within (k + 1) v)) /\
  (forall t, x = Some t -> Rabs (px (ray_at o deg t)) <= bpow radix2 k /\ Rabs (py (ray_at o deg t)) <= bpow radix2 k).
Proof.
  intros Hk Hm WA WB LC C. unfold ray_meets in C. set (D := Rabs _) in C. unfold Segment2D_intersection_line, Segment2D_line. destruct x as [t|]; cbn [option_map].
  - set (q := ray_at o deg t) in *. cbv zeta in C. destruct C as (O1 & CE & D1 & D2 & E). assert (PD : 0 < D) by lra.
    assert (I1 := on_seg_between _ _ _ O1). destruct (box_bound k _ _ q WA WB I1) as [QX QY]. split; [|intros t' [= <-]; fold q; split; assumption].
    assert (L1 : on_line2 (fpt (s_origin s)) (fpt (s_terminal s)) q) by (destruct O1 as (z & _ & H); now exists z).
    destruct (ray_cut L k k _ _ o deg l t Hk ltac:(lia) WA WB LC D1 D2 L1 QX QY) as (v & V & V0 & V1 & V2 & V3 & V4). fold D q in V3, V4.
    pose proof (over_D k k D PD D1) as MK. replace (k + k - 42)%Z with (2 * k - 42)%Z in V3, V4, MK by lia.
    assert (HA : hit_at k m v q).
    { split; [split; [exact V0|split; [exact V1|split; [exact V2|split; eapply Rle_trans; try exact E; assumption]]]|]. exact (within_near k v q _ MK V1 V2 QX QY V3 V4). }
    assert (PM : 0 <= m) by (pose proof (Rabs_pos (px (fpt v) - px q)); lra).
    exists v. rewrite V. cbn [bind]. rewrite V0, (hit_in L k m s v q Hk (conj PM Hm) WA WB HA I1 CE). cbn [negb orb]. split; [reflexivity|]. split; [exact (proj1 HA)|]. intros _. exact (proj2 HA).
  - split; [|intros t [=]]. exists (@Vector2D_invalid F (NumF L)). destruct C as [C|(n & t & Hn & O1 & QX & QY & D1 & D2 & C)].
    + rewrite (ray_miss L k _ _ o deg l Hk WA WB LC C). split; [reflexivity|]. split; [reflexivity|]. intros H; now elim H.
    + set (q := ray_at o deg t) in *. destruct (ray_cut L k n _ _ o deg l t Hk ltac:(lia) WA WB LC D1 D2 O1 QX QY) as (v & V & V0 & V1 & V2 & V3 & V4). fold D q in V3, V4. assert (PD : 0 < D) by lra. pose proof (over_D n k D PD D1) as EK.
      pose proof (within_near n v q _ EK V1 V2 QX QY V3 V4) as WV. rewrite V. cbn [bind].
      rewrite (proj2 (C149_contains_F L (n + 1) s v ltac:(lia) (within_up k (n + 1) _ ltac:(lia) WA) (within_up k (n + 1) _ ltac:(lia) WB) WV)).
      * rewrite orb_true_r. split; [reflexivity|]. split; [reflexivity|]. intros H; now elim H.
      * unfold beyond_box in *. set (e := bpow radix2 (n + k - 42) / D) in *. apply Rabs_le_inv in V3, V4. destruct C as [C|[C|[C|C]]]; lra.
Qed.
(** Triangle2D.intersection(ray) in doubles, when at most one of the places of the first two sides is
    met: it depends only on whether the first meeting point is in front of the origin.  If
    it is, the meeting points of the whole line are counted, even one behind the origin;
    if it is behind, none is counted, even one in front. *)
Theorem C179_triangle_ray_F : forall (L : libm) (k : Z) (m : R) (t : triangle F) (ry : ray F) (xab xbc xca : option R), (-200 <= k <= 200)%Z -> m <= / 32768 -> trig_accurate L -> atan2_accurate L ->
  let a := t_a t in let b := t_b t in let c := t_c t in within k a -> within k b -> within k c -> within k (ray_origin ry) -> good_degree (a_degree (ray_dir ry)) ->
  let o := fpt (ray_origin ry) in let deg := B2R (a_degree (ray_dir ry)) in
  ray_meets k m (fpt a) (fpt b) o deg xab -> ray_meets k m (fpt b) (fpt c) o deg xbc -> ray_meets k m (fpt c) (fpt a) o deg xca ->
  let at_ := ray_at o deg in
  let front s := bpow radix2 (-17) <= s /\ 256 * m <= s in let behind s := s <= - bpow radix2 (-17) /\ s <= - (256 * m) in
  let res := @Triangle2D_intersection F (NumF L) t (VRay ry) in
  let two s s' := exists n v w, res = Ok (mkTriSol n v w) /\ reports m v (at_ s) /\ reports m w (at_ s') /\ (n = 2%nat \/ n = 1%nat /\ weakly_near v w) in
  let one s := exists v w, res = Ok (mkTriSol 1 v w) /\ reports m v (at_ s) in
  let none := exists v w, res = Ok (mkTriSol 0 v w) in
  match xab, xbc, xca with
  | Some _, Some _, _ => res = Raise IndexError
  | Some s, None, Some s' | None, Some s, Some s' => (front s -> two s s') /\ (behind s -> none)
  | Some s, None, None | None, Some s, None | None, None, Some s => (front s -> one s) /\ (behind s -> none)
  | None, None, None => none
  end.
Proof.
  intros L k m t ry xab xbc xca Hk Hm TA AT a b c WA WB WC WO G o deg Cab Cbc Cca at_ front behind res two one none.
  destruct (lclose2_angle L k (ray_origin ry) (AA (ray_dir ry)) Hk TA WO G) as (l & El & LC). cbn [arg_F] in LC. fold deg o in LC. change (rline k o deg l) in LC.
  destruct (ray_seg L k m (@Segment2D_of_points F a b) o deg l xab Hk Hm WA WB LC Cab) as [P1 Q1].
  destruct (ray_seg L k m (@Segment2D_of_points F b c) o deg l xbc Hk Hm WB WC LC Cbc) as [P2 Q2].
  destruct (ray_seg L k m (@Segment2D_of_points F c a) o deg l xca Hk Hm WC WA LC Cca) as [P3 Q3].
  pose proof (tri_any_core L k m t l _ _ _ Hk P1 P2 P3) as T. cbv zeta in T. clear P1 P2 P3 Cab Cbc Cca.
  assert (RR : res = @Triangle2D_intersection_ray F (NumF L) t ry) by reflexivity. unfold Triangle2D_intersection_ray, Ray2D_line in RR. rewrite El in RR. cbn [bind] in RR.
  cbn [Triangle2D_intersection] in T. set (rl := @Triangle2D_intersection_line F (NumF L) t l) in *. clearbody rl.
  assert (TWO : forall s s', Rabs (px (at_ s)) <= bpow radix2 k /\ Rabs (py (at_ s)) <= bpow radix2 k -> (exists n v w, rl = Ok (mkTriSol n v w) /\ reports m v (at_ s) /\ reports m w (at_ s') /\ (n = 2%nat \/ n = 1%nat /\ weakly_near v w)) -> (front s -> two s s') /\ (behind s -> none)).
  { intros s s' [I1 I2] (n & v & w & E & R1 & R2 & N). rewrite E in RR. cbn [bind ts_n ts_1 ts_2] in RR. destruct (faced L ry k m s v Hk AT WO G I1 I2 (proj2 R1)) as [A1 A2].
    split; intros [F1 F2].
    - exists n, v, w. split; [|split; [exact R1|split; [exact R2|exact N]]]. specialize (A1 F1 F2). destruct N as [-> |[-> _]]; do 2 (cbn [Nat.ltb Nat.leb Nat.sub bind negb ts_n ts_1 ts_2] in RR; try rewrite A1 in RR); exact RR.
    - specialize (A2 F1 F2). destruct N as [-> |[-> _]]; do 2 (cbn [Nat.ltb Nat.leb Nat.sub bind negb ts_n ts_1 ts_2] in RR; try rewrite A2 in RR); cbn [Nat.ltb Nat.leb Nat.sub bind negb ts_n ts_1 ts_2] in RR; eexists; eexists; exact RR. }
  assert (ONE : forall s, Rabs (px (at_ s)) <= bpow radix2 k /\ Rabs (py (at_ s)) <= bpow radix2 k -> (exists v w, rl = Ok (mkTriSol 1 v w) /\ reports m v (at_ s)) -> (front s -> one s) /\ (behind s -> none)).
  { intros s [I1 I2] (v & w & E & R1). rewrite E in RR. cbn [bind ts_n ts_1 ts_2 Nat.ltb Nat.leb] in RR. destruct (faced L ry k m s v Hk AT WO G I1 I2 (proj2 R1)) as [A1 A2].
    split; intros [F1 F2].
    - rewrite (A1 F1 F2) in RR. exists v, w. split; [exact RR|exact R1].
    - rewrite (A2 F1 F2) in RR. eexists; eexists; exact RR. }
  destruct xab as [s1|], xbc as [s2|], xca as [s3|]; cbn [option_map] in T.
  - now rewrite T in RR.
  - now rewrite T in RR.
  - exact (TWO s1 s3 (Q1 _ eq_refl) T).
  - exact (ONE s1 (Q1 _ eq_refl) T).
  - exact (TWO s2 s3 (Q2 _ eq_refl) T).
  - exact (ONE s2 (Q2 _ eq_refl) T).
  - exact (ONE s3 (Q3 _ eq_refl) T).
  - destruct T as (v & w & T). rewrite T in RR. eexists; eexists; exact RR.
Qed.

(** ** Concrete cases *)
(** The horizontal ray from (1,1) towards 0 degrees leaves the square (0,0)-(4,4) at (4,1); its line also cuts the left side behind
    the origin.  It misses the side ab of the triangle (0,0), (4,0), (0,4), meets bc at
    (3,1), and its line meets ca behind the origin. *)
Example C179_nonvacuous : let r := mkRect (fv 0 0) (mkSize (F_of_Z 4) (F_of_Z 4)) true in let t := mkTri (fv 0 0) (fv 4 0) (fv 0 4) in let ry := mkRay (fv 1 1) (mkAngle (F_of_Z 0)) in let m := / 65536 in
  let L := libm_round in
  (trig_accurate L /\ atan2_accurate L /\ m <= / 32768) /\
  (within 3 (@Rect2D_top_left F r) /\ within 3 (@Rect2D_bottom_right F (NumF L) r) /\ within 3 (ray_origin ry) /\ good_degree (a_degree (ray_dir ry)) /\ within 3 (t_a t) /\ within 3 (t_b t) /\ within 3 (t_c t)) /\
  let tl := fpt (@Rect2D_top_left F r) in let tr := fpt (@Rect2D_top_right F (NumF L) r) in let bl := fpt (@Rect2D_bottom_left F (NumF L) r) in let br := fpt (@Rect2D_bottom_right F (NumF L) r) in
  let o := fpt (ray_origin ry) in let deg := B2R (a_degree (ray_dir ry)) in
  (ray_cuts 3 m py (py tl) (py br) tl bl o deg (Some (-1)) /\ ray_cuts 3 m py (py tl) (py br) tr br o deg (Some 3) /\
   ray_cuts 3 m px (px tl) (px br) tl tr o deg None /\ ray_cuts 3 m px (px tl) (px br) bl br o deg None /\ facing m (places [Some (-1); Some 3; None; None]) [3]) /\
  (ray_meets 3 m (fpt (t_a t)) (fpt (t_b t)) o deg None /\ ray_meets 3 m (fpt (t_b t)) (fpt (t_c t)) o deg (Some 2) /\ ray_meets 3 m (fpt (t_c t)) (fpt (t_a t)) o deg (Some (-1))).
Proof.
  intros r t ry m L. assert (G : Bplus mode_NE (F_of_Z 0) (F_of_Z 4) = F_of_Z 4) by (apply B2SF_inj; vm_compute; reflexivity).
  assert (ETL : @Rect2D_top_left F r = fv 0 0) by reflexivity.
  assert (GE : forall L, @Rect2D_bottom_right F (NumF L) r = fv 4 4 /\ @Rect2D_top_right F (NumF L) r = fv 4 0 /\ @Rect2D_bottom_left F (NumF L) r = fv 0 4).
  { intros L'. unfold r, Rect2D_bottom_right, Rect2D_top_right, Rect2D_bottom_left, Rect2D_left, Rect2D_right, Rect2D_top, Rect2D_bottom, fv. unfold Rect2D_left, Rect2D_top. cbn [r_top_left r_size vx vy sz_length sz_width nadd NumF]. rewrite !G. repeat split. }
  destruct (GE L) as (EBR & ETR & EBL). cbv zeta. rewrite ETL, EBR, ETR, EBL. clear ETL EBR ETR EBL GE G r.
  unfold t, ry. cbn [t_a t_b t_c ray_origin ray_dir a_degree]. clear t ry. rewrite !fpt_fv by lia. destruct (F_of_Z_exact 0 eq_refl) as [Z1 Z2]. rewrite Z1. unfold m.
  split; [split; [exact libm_round_trig|split; [exact libm_round_atan2|lra]]|].
  split; [do 3 (split; [apply within_fv; lia|]); split; [split; [exact Z2|rewrite Z1; lra]|do 2 (split; [apply within_fv; lia|]); apply within_fv; lia]|].
  assert (R0 : rad 0 = 0) by (unfold rad; field). unfold ray_cuts, ray_meets, ray_at, cross, psub, px, py. cbv zeta. cbn [fst snd]. rewrite R0, cos_0, sin_0.
  assert (D1 : Rabs ((0 - 0) * 0 - (4 - 0) * 1) = 4) by (rewrite Rabs_left; lra). assert (D2 : Rabs ((4 - 4) * 0 - (4 - 0) * 1) = 4) by (rewrite Rabs_left; lra).
  assert (D3 : Rabs ((4 - 0) * 0 - (0 - 0) * 1) = 0) by (replace ((4 - 0) * 0 - (0 - 0) * 1) with 0 by ring; apply Rabs_R0). assert (D4 : Rabs ((4 - 0) * 0 - (4 - 4) * 1) = 0) by (replace ((4 - 0) * 0 - (4 - 4) * 1) with 0 by ring; apply Rabs_R0).
  assert (D5 : Rabs ((0 - 4) * 0 - (4 - 0) * 1) = 4) by (rewrite Rabs_left; lra). assert (D6 : Rabs ((0 - 0) * 0 - (0 - 4) * 1) = 4) by (rewrite Rabs_pos_eq; lra).
  rewrite D1, D2, D3, D4, D5, D6. change (bpow radix2 (3 - 42)) with (/ 549755813888). change (bpow radix2 (2 * 3 - 42)) with (/ 68719476736). change (bpow radix2 (3 - 48)) with (/ 35184372088832).
  assert (O : forall a b c d x y t, x = a + t * (c - a) -> y = b + t * (d - b) -> on_line2 (a, b) (c, d) (x, y)) by (intros a b c d x y t -> ->; exists t; reflexivity).
  assert (OS : forall a b c d x y t, 0 <= t <= 1 -> x = a + t * (c - a) -> y = b + t * (d - b) -> on_seg (a, b) (c, d) (x, y)) by (intros a b c d x y t T -> ->; exists t; split; [exact T|reflexivity]).
  split.
  - split; [split; [apply (O _ _ _ _ _ _ (1 / 4)); lra|split; [split; lra|lra]]|].
    split; [split; [apply (O _ _ _ _ _ _ (1 / 4)); lra|split; [split; lra|lra]]|].
    split; [left; lra|]. split; [left; lra|]. cbn [places flat_map app]. change (bpow radix2 (-17)) with (/ 131072).
    apply facing_out; [change (bpow radix2 (-17)) with (/ 131072); lra|lra|]. apply facing_in; [change (bpow radix2 (-17)) with (/ 131072); lra|lra|]. constructor.
  - split; [left; lra|]. split.
    + split; [apply (OS _ _ _ _ _ _ (1 / 4)); lra|]. split; [unfold clear_of_ends, px, py; cbn [fst snd]; split; right; split; first [rewrite Rabs_pos_eq by lra; lra|rewrite Rabs_left by lra; lra]|lra].
    + split; [apply (OS _ _ _ _ _ _ (3 / 4)); lra|]. split; [unfold clear_of_ends, px, py; cbn [fst snd]; split; [left; reflexivity|right; split; first [rewrite Rabs_pos_eq by lra; lra|rewrite Rabs_left by lra; lra]]|lra].
Qed.
