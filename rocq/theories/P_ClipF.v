(** * P_ClipF: clipping polygons in doubles (C180) *)
From Coq Require Import ZArith List Bool String Reals Lra Lia Psatz.
From Flocq Require Import Core BinarySingleNaN.
From Verif Require Import P_SegF3 Base Types NumR NumF R_Tac Spec Spec2 Abs M_Angle M_Vector M_Line M_Segment M_Rect M_Polygon
  L_Angle P_Vector P_Line L_Float P_Float P_AngleF P_Robust P_Hull2 P_VecF P_TrigF P_LineF P_MatF P_CircF P_RayF P_SegF2 P_Polygon P_Polygon2.
Import ListNotations.
Local Open Scope R_scope.

(** ** Specification *)
(** On which side of the line from [o] in direction [deg] a point is (and how far). *)
Definition line_side (o : point) (deg : R) (p : point) : R := cross (cos (rad deg), sin (rad deg)) (psub p o).
(** [c] is where the edge from a to b crosses that line, up to rounding. *)
Definition edge_cut (k : Z) (o : point) (deg : R) (a b c : vec F) : Prop :=
  exists q, on_seg (fpt a) (fpt b) q /\ line_side o deg q = 0 /\ v_valid c = true /\
    coords_near (bpow radix2 (2 * k - 42) / Rabs (line_side o deg (fpt b) - line_side o deg (fpt a))) c q.
(** What clipping makes of the edge from a to b. *)
Definition edge_clipped (k : Z) (o : point) (deg : R) (region : vec F -> bool) (a b : vec F) (out : list (vec F)) : Prop :=
  match region a, region b with
  | true, true => out = [b]
  | true, false => exists c, out = [c] /\ edge_cut k o deg a b c
  | false, true => exists c, out = [c; b] /\ edge_cut k o deg a b c
  | false, false => out = []
  end.

(** The intersection is refused or accurate. *)
Lemma inter2_any L g i j k n l1 l2 A1 B1 C1 A2 B2 C2 q : (40 <= g <= 48)%Z -> (-200 <= i <= 200)%Z -> (-200 <= j <= 200)%Z -> (-200 <= k <= 200)%Z -> (k <= n <= 500)%Z -> lclose2 g i k A1 B1 C1 l1 -> lclose2 g j k A2 B2 C2 l2 ->
  let D := A1 * B2 - B1 * A2 in bpow radix2 (i + j - g + 6) <= Rabs D ->
  on_line A1 B1 C1 q -> on_line A2 B2 C2 q -> Rabs (px q) <= bpow radix2 n -> Rabs (py q) <= bpow radix2 n ->
  exists v, @Line2D_intersection F (NumF L) l1 l2 = Ok v /\ (v = @Vector2D_invalid F (NumF L) /\ Rabs D <= 1 / 999999 + 9 * bpow radix2 (i + j - g) \/ v_valid v = true /\ is_finite (vx v) = true /\ is_finite (vy v) = true /\
    Rabs (px (fpt v) - px q) <= bpow radix2 (n + i + j - g + 6) / Rabs D /\ Rabs (py (fpt v) - py q) <= bpow radix2 (n + i + j - g + 6) / Rabs D).
Proof.
  intros Hg Hi Hj Hk Hn X Y D D1 O1 O2 QX QY. assert (DD := det2 L g i j k l1 l2 _ _ _ _ _ _ Hg Hi Hj X Y). fold D in DD.
  destruct X as (X1 & X2 & X3 & X4 & X5 & X6). destruct Y as (Y1 & Y2 & Y3 & Y4 & Y5 & Y6).
  unfold Line2D_intersection. set (tmp := @nsub F (NumF L) _ _) in *. destruct DD as (T1 & T2 & T3).
  set (e := bpow radix2 (i + j - g)) in *. assert (PE : 0 < e) by apply bpow_gt_0. set (b := bpow radix2 n). assert (PB : 0 < b) by apply bpow_gt_0.
  assert (EL : bpow radix2 (i + j - g + 6) = 64 * e) by (replace (i + j - g + 6)%Z with (6 + (i + j - g))%Z by lia; now rewrite bpow_plus). rewrite EL in D1.
  assert (AT : Rabs D / 2 <= Rabs (B2R tmp)) by (pose proof (Rabs_triang_inv D (D - B2R tmp)) as T; replace (D - (D - B2R tmp)) with (B2R tmp) in T by ring; rewrite Rabs_minus_sym in T3; lra).
  destruct (@nltb F (NumF L) (@nabs F (NumF L) tmp) (@EPSILON F (NumF L))) eqn:E0; [exists (@Vector2D_invalid F (NumF L)); split; [reflexivity|left; split; [reflexivity|]]|].
  { destruct (P_LineF.eps_F L) as [F1 F2]. cbn [nltb nabs NumF] in E0. rewrite ltb_F in E0 by (rewrite ?is_finite_Babs; assumption). rewrite B2R_Babs in E0. destruct (Rlt_bool_spec (Rabs (B2R tmp)) (B2R (@EPSILON F (NumF L)))) as [K|K]; [|discriminate E0].
    fold e. replace D with (B2R tmp - (B2R tmp - D)) by ring. eapply Rle_trans; [apply Rabs_triang|]. rewrite Rabs_Ropp. lra. }
  set (e3 := bpow radix2 (i + j + k - g)). assert (E3 : e3 <= b * e) by (unfold e3, b, e; rewrite <- bpow_plus; apply bpow_le; lia).
  destruct (num2 g i j k B1 (l_b l1) C2 (l_c l2) B2 (l_b l2) C1 (l_c l1) Hg Hi Hj Hk X5 X2 Y3 Y5 Y2 X3) as [NX _].
  destruct (num2 g i j k A1 (l_a l1) C2 (l_c l2) A2 (l_a l2) C1 (l_c l1) Hg Hi Hj Hk X4 X1 Y3 Y4 Y1 X3) as [_ NY]. fold e3 in NX, NY.
  destruct NX as (NX1 & _ & NX3). destruct NY as (NY1 & _ & NY3). unfold on_line in O1, O2.
  assert (PD : 0 < Rabs D) by lra. assert (PBE : 0 < b * e) by (apply Rmult_lt_0_compat; assumption).
  assert (BE : b * (64 * e) <= b * Rabs D) by (apply Rmult_le_compat_l; lra).
  assert (DU : Rabs D <= 8 * (e * bpow radix2 g)).
  { unfold D. eapply sum_abs; [apply (mul_abs _ _ (i + 1) (j + 1)); eassumption|apply (mul_abs _ _ (i + 1) (j + 1)); eassumption|]. unfold e. rewrite <- bpow_plus.
    replace (i + 1 + (j + 1))%Z with (2 + (i + j - g + g))%Z by lia. rewrite (bpow_plus radix2 2). change (bpow radix2 2) with 4. lra. }
  assert (FIN : forall z r : R, Rabs (z - r) <= 2 * (17 * e3 + b * (9 * e)) / Rabs D + bpow radix2 (n - 53) -> Rabs (z - r) <= bpow radix2 (n + i + j - g + 6) / Rabs D).
  { intros z r H. eapply Rle_trans; [exact H|]. replace (bpow radix2 (n + i + j - g + 6)) with (b * (64 * e)) by (rewrite <- EL; unfold b; rewrite <- bpow_plus; f_equal; lia).
    apply (Rmult_le_reg_r (Rabs D)); [exact PD|]. rewrite Rmult_plus_distr_r. unfold Rdiv. rewrite !(Rmult_assoc _ (/ Rabs D) (Rabs D)), Rinv_l, !Rmult_1_r by lra.
    assert (S : bpow radix2 (n - 53) * Rabs D <= 1 * (b * e)).
    { replace (n - 53)%Z with (n + -53)%Z by lia. rewrite bpow_plus. fold b. rewrite Rmult_assoc, <- Rmult_assoc, (Rmult_comm 1), !Rmult_assoc. apply Rmult_le_compat_l; [lra|].
      assert (G48 : bpow radix2 g <= bpow radix2 48) by (apply bpow_le; lia). change (bpow radix2 48) with 281474976710656 in G48. change (bpow radix2 (-53)) with (/ 9007199254740992). assert (e * bpow radix2 g <= e * 281474976710656) by (apply Rmult_le_compat_l; lra). lra. }
    clear - E3 S PBE. lra. }
  assert (TT : 2 * (17 * e3 + b * (9 * e)) <= b * Rabs D) by lra.
  destruct (quot_close n (17 * e3) (9 * e) (B1 * C2 - B2 * C1) D (px q) _ tmp ltac:(lia) NX1 T1 NX3 T3) as (x & U1 & U2 & U3 & _); try assumption; try lra.
  { unfold D. replace C1 with (- (A1 * px q + B1 * py q)) by lra. replace C2 with (- (A2 * px q + B2 * py q)) by lra. ring. }
  destruct (quot_close n (17 * e3) (9 * e) (A2 * C1 - A1 * C2) D (py q) _ tmp ltac:(lia) NY1 T1 NY3 T3) as (y & W1 & W2 & W3 & _); try assumption; try lra.
  { unfold D. replace C1 with (- (A1 * px q + B1 * py q)) by lra. replace C2 with (- (A2 * px q + B2 * py q)) by lra. ring. }
  cbn [ndiv nsub nmul NumF]. rewrite U1. cbn [bind]. rewrite W1. cbn [bind]. eexists. split; [reflexivity|]. right. cbn [vx vy v_valid V fpt px py fst snd].
  split; [reflexivity|]. split; [exact U2|]. split; [exact W2|]. split; apply FIN; assumption.
Qed.

(** ** One edge *)
Lemma edge_cases L k o x l a b : (-200 <= k <= 20)%Z -> within k a -> within k b ->
  lclose2 48 0 k (- sin (rad x)) (cos (rad x)) (sin (rad x) * px o - cos (rad x) * py o) l ->
  line_side o x (fpt a) * line_side o x (fpt b) <= 0 ->
  exists v, @Line2D_intersection F (NumF L) l (@Line2D_of_points F (NumF L) a b) = Ok v /\
    (v = @Vector2D_invalid F (NumF L) /\ Rabs (line_side o x (fpt b) - line_side o x (fpt a)) <= 1 / 999999 + bpow radix2 (k - 44) \/ edge_cut k o x a b v).
Proof.
  intros Hk WA WB LC OP. pose proof (lclose2_of _ _ _ _ _ (lclose_points L k a b ltac:(lia) WA WB)) as LS.
  match type of LS with lclose2 _ _ _ ?A ?B ?C _ => set (A2 := A) in *; set (B2 := B) in *; set (C2 := C) in * end.
  set (sa := line_side o x (fpt a)) in *. set (sb := line_side o x (fpt b)) in *.
  assert (ED : - sin (rad x) * B2 - cos (rad x) * A2 = sb - sa) by (unfold sa, sb, line_side, cross, psub, A2, B2, px, py; cbn [fst snd]; ring).
  assert (E16 : 9 * bpow radix2 (k + 0 - 48) <= bpow radix2 (k - 44)) by (replace (k - 44)%Z with (4 + (k - 48))%Z by lia; rewrite bpow_plus; change (bpow radix2 4) with 16; replace (k + 0 - 48)%Z with (k - 48)%Z by lia; pose proof (bpow_gt_0 radix2 (k - 48)); lra).
  assert (B28 : bpow radix2 (k - 48) <= / 268435456) by (change (/ 268435456) with (bpow radix2 (-28)); apply bpow_le; lia).
  destruct (Rlt_le_dec (Rabs (sb - sa)) (bpow radix2 (k - 42))) as [H|H].
  - exists (@Vector2D_invalid F (NumF L)). assert (H64 : bpow radix2 (k - 42) = 64 * bpow radix2 (k - 48)) by (replace (k - 42)%Z with (6 + (k - 48))%Z by lia; rewrite bpow_plus; reflexivity).
    split; [|left; split; [reflexivity|pose proof (bpow_gt_0 radix2 (k - 44)); lra]].
    apply (inter2_none L 48 0 k k l _ _ _ _ _ _ _ ltac:(lia) ltac:(lia) ltac:(lia) LC LS). rewrite ED. replace (0 + k - 48)%Z with (k - 48)%Z by lia. lra.
  - assert (NZ : sb - sa <> 0) by (intros Z; rewrite Z, Rabs_R0 in H; pose proof (bpow_gt_0 radix2 (k - 42)); lra).
    set (t := - sa / (sb - sa)). set (q := lerp (fpt a) (fpt b) t).
    assert (TE : t * (sb - sa) = - sa) by (unfold t; field; exact NZ).
    assert (T01 : 0 <= t <= 1).
    { destruct (Rle_lt_dec 0 sa) as [S1|S1].
      - destruct (Rle_lt_dec sb 0) as [S2|S2].
        + assert (sb - sa < 0) by lra. split; [destruct (Rle_lt_dec 0 t); [assumption|exfalso; nra]|destruct (Rle_lt_dec t 1); [assumption|exfalso; nra]].
        + assert (Z : sa = 0) by (destruct S1 as [S1|S1]; [exfalso; pose proof (Rmult_lt_0_compat _ _ S1 S2); lra|now symmetry]). unfold t. rewrite Z. unfold Rdiv. rewrite Ropp_0, Rmult_0_l. lra.
      - assert (S2 : 0 <= sb) by (destruct (Rle_lt_dec 0 sb); [assumption|exfalso; pose proof (Rmult_lt_0_compat (- sa) (- sb) ltac:(lra) ltac:(lra)); lra]).
        assert (0 < sb - sa) by lra. split; [destruct (Rle_lt_dec 0 t); [assumption|exfalso; nra]|destruct (Rle_lt_dec t 1); [assumption|exfalso; nra]]. }
    assert (OQ : on_seg (fpt a) (fpt b) q) by (exists t; split; [exact T01|reflexivity]).
    assert (LQ : line_side o x q = 0).
    { replace (line_side o x q) with (sa + t * (sb - sa)) by (unfold q, sa, sb, line_side, cross, psub, lerp, px, py; cbn [fst snd]; ring). lra. }
    destruct (box_bound k a b q WA WB (on_seg_between _ _ _ OQ)) as [QX QY].
    destruct (inter2_any L 48 0 k k k l _ _ _ _ _ _ _ q ltac:(lia) ltac:(lia) ltac:(lia) ltac:(lia) ltac:(lia) LC LS) as (v & EV & CV); try assumption.
    + rewrite ED. replace (0 + k - 48 + 6)%Z with (k - 42)%Z by lia. exact H.
    + unfold on_line. unfold line_side, cross, psub, px, py in LQ. cbn [fst snd] in LQ. unfold px, py. lra.
    + apply on_line2_coef. now exists t.
    + exists v. split; [exact EV|]. rewrite ED in CV. replace (k + 0 + k - 48 + 6)%Z with (2 * k - 42)%Z in CV by lia. replace (0 + k - 48)%Z with (k + 0 - 48)%Z in CV by lia.
      destruct CV as [[-> CV]|(V0 & V1 & V2 & V3 & V4)]; [left; split; [reflexivity|lra]|right]. exists q. split; [exact OQ|]. split; [exact LQ|]. split; [exact V0|]. split; [exact V1|]. split; [exact V2|]. split; assumption.
Qed.

(** ** The whole outline *)
(** Clipping in doubles, for every polygon: it never raises; edge by edge it keeps the vertices inside and adds
    the crossings up to rounding, and it stops at the first crossing edge that runs
    almost along the line. *)
Theorem C180_clip_F : forall (L : libm) (k : Z) (o : vec F) (x : ang_arg F) (region : vec F -> bool) (vs : list (vec F)), trig_accurate L -> (-200 <= k <= 20)%Z ->
  within k o -> arg_ok x -> Forall (within k) vs ->
  let side := line_side (fpt o) (arg_F x) in
  (forall a b, In a vs -> In b vs -> region a = true -> region b = false -> side (fpt a) * side (fpt b) <= 0) ->
  exists l ws, @Line2D_of_angle F (NumF L) o x = Ok l /\ @get_line_clipped_polygon F (NumF L) region vs l = Ok ws /\
  exists done outs rest, closed_edges vs = done ++ rest /\ Forall2 (fun e => edge_clipped k (fpt o) (arg_F x) region (fst e) (snd e)) done outs /\ ws = List.concat outs /\
    (rest = [] \/ exists a b rest', rest = (a, b) :: rest' /\ region a <> region b /\ Rabs (side (fpt b) - side (fpt a)) <= 1 / 999999 + bpow radix2 (k - 44)).
Proof.
  intros L k o x region vs TA Hk WO AX WV side OP. destruct (lclose2_angle L k o x ltac:(lia) TA WO AX) as (l & El & LC). exists l.
  assert (G : forall es acc, (forall e, In e es -> In (fst e) vs /\ In (snd e) vs) ->
    exists ws, @clip_loop F (NumF L) region l es acc = Ok (acc ++ ws) /\
    exists done outs rest, es = done ++ rest /\ Forall2 (fun e => edge_clipped k (fpt o) (arg_F x) region (fst e) (snd e)) done outs /\ ws = List.concat outs /\
    (rest = [] \/ exists a b rest', rest = (a, b) :: rest' /\ region a <> region b /\ Rabs (side (fpt b) - side (fpt a)) <= 1 / 999999 + bpow radix2 (k - 44))).
  { induction es as [|[a b] es IH]; intros acc IN; cbn [clip_loop].
    - exists []. rewrite app_nil_r. split; [reflexivity|]. exists [], [], []. repeat split; [constructor|now left].
    - destruct (IN (a, b) (or_introl eq_refl)) as [IA IB]. cbn [fst snd] in IA, IB. rewrite Forall_forall in WV.
      assert (STEP : forall new, edge_clipped k (fpt o) (arg_F x) region a b new -> exists ws, @clip_loop F (NumF L) region l es (acc ++ new) = Ok (acc ++ ws) /\
        exists done outs rest, (a, b) :: es = done ++ rest /\ Forall2 (fun e => edge_clipped k (fpt o) (arg_F x) region (fst e) (snd e)) done outs /\ ws = List.concat outs /\
        (rest = [] \/ exists a b rest', rest = (a, b) :: rest' /\ region a <> region b /\ Rabs (side (fpt b) - side (fpt a)) <= 1 / 999999 + bpow radix2 (k - 44))).
      { intros new N. destruct (IH (acc ++ new) (fun e He => IN e (or_intror He))) as (ws & E & done & outs & rest & H1 & H2 & H3 & H4).
        exists (new ++ ws). split; [now rewrite app_assoc|]. exists ((a, b) :: done), (new :: outs), rest. split; [now rewrite H1|]. split; [constructor; assumption|]. split; [now rewrite H3|exact H4]. }
      assert (STOP : region a <> region b -> Rabs (side (fpt b) - side (fpt a)) <= 1 / 999999 + bpow radix2 (k - 44) -> exists ws, Ok acc = Ok (acc ++ ws) /\
        exists done outs rest, (a, b) :: es = done ++ rest /\ Forall2 (fun e => edge_clipped k (fpt o) (arg_F x) region (fst e) (snd e)) done outs /\ ws = List.concat outs /\
        (rest = [] \/ exists a b rest', rest = (a, b) :: rest' /\ region a <> region b /\ Rabs (side (fpt b) - side (fpt a)) <= 1 / 999999 + bpow radix2 (k - 44))).
      { intros N1 N2. exists []. rewrite app_nil_r. split; [reflexivity|]. exists [], [], ((a, b) :: es). split; [reflexivity|]. split; [constructor|]. split; [reflexivity|]. right. now exists a, b, es. }
      unfold edge_clipped in STEP. destruct (region a) eqn:RA, (region b) eqn:RB.
      + now apply STEP.
      + destruct (edge_cases L k (fpt o) (arg_F x) l a b Hk (WV a IA) (WV b IB) LC (OP a b IA IB RA RB)) as (v & EV & [[-> CV]|CV]); rewrite EV; cbn [bind].
        * apply STOP; [discriminate|exact CV].
        * assert (V0 : v_valid v = true) by (destruct CV as (q & _ & _ & V & _); exact V). rewrite V0. apply STEP. now exists v.
      + destruct (edge_cases L k (fpt o) (arg_F x) l a b Hk (WV a IA) (WV b IB) LC) as (v & EV & [[-> CV]|CV]); [rewrite Rmult_comm; exact (OP b a IB IA RB RA)| |]; rewrite EV; cbn [bind].
        * apply STOP; [discriminate|exact CV].
        * assert (V0 : v_valid v = true) by (destruct CV as (q & _ & _ & V & _); exact V). rewrite V0. apply STEP. now exists v.
      + specialize (STEP []). rewrite app_nil_r in STEP. now apply STEP. }
  destruct (G (cyc_pairs vs) []) as (ws & E & R).
  { intros e He. rewrite cyc_pairs_closed in He. exact (in_closed _ _ He). }
  exists ws. split; [exact El|]. split; [exact E|]. rewrite <- cyc_pairs_closed. exact R.
Qed.

(** ** Half planes bounded by an axis-parallel line *)
(** [c] is where the edge from a to b crosses the line f = thr, up to rounding. *)
Definition axis_cut (k : Z) (f : point -> R) (thr : R) (a b c : vec F) : Prop :=
  exists q, on_seg (fpt a) (fpt b) q /\ f q = thr /\ v_valid c = true /\ coords_near (bpow radix2 (2 * k - 42) / Rabs (f (fpt b) - f (fpt a))) c q.
Definition axis_clipped (k : Z) (f : point -> R) (thr : R) (region : vec F -> bool) (e : vec F * vec F) (out : list (vec F)) : Prop :=
  let (a, b) := e in
  match region a, region b with
  | true, true => out = [b]
  | true, false => exists c, out = [c] /\ axis_cut k f thr a b c
  | false, true => exists c, out = [c; b] /\ axis_cut k f thr a b c
  | false, false => out = []
  end.
(** [ws] is the outline [vs], edge by edge clipped at f = thr, possibly stopped
    at an edge that crosses with an extent of less than about 1e-6. *)
Definition axis_clip (k : Z) (f : point -> R) (thr : R) (region : vec F -> bool) (vs ws : list (vec F)) : Prop :=
  exists done outs rest, closed_edges vs = done ++ rest /\ Forall2 (axis_clipped k f thr region) done outs /\ ws = List.concat outs /\
    (rest = [] \/ exists a b rest', rest = (a, b) :: rest' /\ region a <> region b /\ Rabs (f (fpt b) - f (fpt a)) <= 1 / 999999 + bpow radix2 (k - 44)).
Lemma num_F L n : (Z.abs n < 2 ^ 53)%Z -> is_finite (@nlit F (NumF L) n 1) = true /\ B2R (@nlit F (NumF L) n 1) = IZR n.
Proof. intros H. change (@nlit F (NumF L) n 1) with (F_of_Z n). destruct (F_of_Z_exact n H) as [E1 E2]. split; assumption. Qed.
Lemma axis_of L k (o : vec F) x f thr (sg : R) region vs : trig_accurate L -> (-200 <= k <= 20)%Z -> within k o -> arg_ok x -> Forall (within k) vs -> sg = 1 \/ sg = -1 ->
  (forall p, line_side (fpt o) (arg_F x) p = sg * (f p - thr)) ->
  (forall a b, In a vs -> In b vs -> region a = true -> region b = false -> (f (fpt a) - thr) * (f (fpt b) - thr) <= 0) ->
  exists l ws, @Line2D_of_angle F (NumF L) o x = Ok l /\ @get_line_clipped_polygon F (NumF L) region vs l = Ok ws /\ axis_clip k f thr region vs ws.
Proof.
  intros TA Hk WO AX WV SG LS OP. destruct (C180_clip_F L k o x region vs TA Hk WO AX WV) as (l & ws & El & E & done & outs & rest & H1 & H2 & H3 & H4).
  { intros a b IA IB RA RB. rewrite !LS. specialize (OP a b IA IB RA RB). replace (sg * (f (fpt a) - thr) * (sg * (f (fpt b) - thr))) with (sg * sg * ((f (fpt a) - thr) * (f (fpt b) - thr))) by ring. replace (sg * sg) with 1 by (destruct SG as [-> | ->]; ring). lra. }
  assert (DD : forall p q, Rabs (line_side (fpt o) (arg_F x) p - line_side (fpt o) (arg_F x) q) = Rabs (f p - f q)).
  { intros p q. rewrite !LS. replace (sg * (f p - thr) - sg * (f q - thr)) with (sg * (f p - f q)) by ring. rewrite Rabs_mult. replace (Rabs sg) with 1 by (destruct SG as [-> | ->]; [rewrite Rabs_pos_eq by lra|rewrite Rabs_left by lra]; lra). ring. }
  assert (CC : forall a b c, edge_cut k (fpt o) (arg_F x) a b c -> axis_cut k f thr a b c).
  { intros a b c (q & Q1 & Q2 & Q3 & Q4). exists q. rewrite DD in Q4. split; [exact Q1|]. split; [|split; assumption]. rewrite LS in Q2. destruct SG as [-> | ->]; lra. }
  exists l, ws. split; [exact El|]. split; [exact E|]. exists done, outs, rest. split; [exact H1|]. split; [|split; [exact H3|]].
  - clear - H2 CC. induction H2 as [|[a b] out done outs H _ IH]; constructor; [|exact IH]. unfold edge_clipped in H. cbn [fst snd] in H. unfold axis_clipped.
    destruct (region a), (region b); try exact H; destruct H as (c & -> & H); exists c; (split; [reflexivity|now apply CC]).
  - destruct H4 as [H4|(a & b & rest' & R1 & R2 & R3)]; [now left|right]. exists a, b, rest'. rewrite DD in R3. repeat split; assumption.
Qed.
Lemma side_90 L t p : is_finite t = true -> line_side (fpt (V t (@nlit F (NumF L) 0 1))) (arg_F (AN (@nlit F (NumF L) 90 1))) p = -1 * (px p - B2R t).
Proof.
  intros Ft. cbn [arg_F]. rewrite (proj2 (num_F L 90 ltac:(lia))). assert (R90 : rad 90 = PI / 2) by (unfold rad; field). unfold line_side, cross, psub, fpt, V, px, py. cbn [fst snd vx vy]. rewrite R90, cos_PI2, sin_PI2. ring.
Qed.
Lemma side_0 L t p : is_finite t = true -> line_side (fpt (V (@nlit F (NumF L) 0 1) t)) (arg_F (AN (@nlit F (NumF L) 0 1))) p = 1 * (py p - B2R t).
Proof.
  intros Ft. cbn [arg_F]. rewrite (proj2 (num_F L 0 ltac:(lia))). assert (R0 : rad 0 = 0) by (unfold rad; field). unfold line_side, cross, psub, fpt, V, px, py. cbn [fst snd vx vy]. rewrite R0, cos_0, sin_0. ring.
Qed.
(** The four clips that get_rectangle_clipped_polygon is made of, each with the line of its own side. *)
Theorem C180_axis_F : forall (L : libm) (k : Z) (t : F) (vs : list (vec F)), trig_accurate L -> (-200 <= k <= 20)%Z -> fbound k t -> Forall (within k) vs ->
  let zero := @nlit F (NumF L) 0 1 in
  let clipped region o deg f := exists l ws, @Line2D_of_angle F (NumF L) o (AN (@nlit F (NumF L) deg 1)) = Ok l /\ @get_line_clipped_polygon F (NumF L) region vs l = Ok ws /\ axis_clip k f (B2R t) region vs ws in
  clipped (@x_less_equal F (NumF L) t) (V t zero) 90%Z px /\ clipped (@x_more_equal F (NumF L) t) (V t zero) 90%Z px /\
  clipped (@y_less_equal F (NumF L) t) (V zero t) 0%Z py /\ clipped (@y_more_equal F (NumF L) t) (V zero t) 0%Z py.
Proof.
  intros L k t vs TA Hk [Ft Bt] WV zero clipped. assert (Z0 := num_F L 0 ltac:(lia)). destruct Z0 as [Z1 Z2]. pose proof (bpow_gt_0 radix2 k) as KP.
  assert (BZ : Rabs (B2R zero) <= bpow radix2 k) by (unfold zero; rewrite Z2, Rabs_R0; lra).
  assert (WX : within k (V t zero)) by (repeat split; assumption). assert (WY : within k (V zero t)) by (repeat split; assumption).
  assert (A90 : arg_ok (AN (@nlit F (NumF L) 90 1))) by (exact (proj1 (num_F L 90 ltac:(lia)))). assert (A0 : arg_ok (AN (@nlit F (NumF L) 0 1))) by exact Z1.
  assert (FX : forall v, In v vs -> is_finite (vx v) = true /\ is_finite (vy v) = true) by (intros v I; rewrite Forall_forall in WV; destruct (WV v I) as (X & Y & _); split; assumption).
  assert (LE : forall (x y : F), is_finite x = true -> is_finite y = true -> (Bleb x y = true -> B2R x <= B2R y) /\ (Bleb x y = false -> B2R y < B2R x)).
  { intros x y X Y. rewrite leb_F by assumption. destruct (Rle_bool_spec (B2R x) (B2R y)); split; intros E; try discriminate E; assumption. }
  assert (MUL : forall u v, u <= 0 -> 0 <= v -> u * v <= 0 /\ v * u <= 0) by (intros u v U W; assert (0 <= - u * v) by (apply Rmult_le_pos; lra); lra).
  split; [|split; [|split]].
  - apply (axis_of L k (V t zero) _ px (B2R t) (-1)); try assumption; [now right|intros p; now apply side_90|]. intros a b IA IB RA RB. unfold x_less_equal in RA, RB. cbn [nleb NumF] in RA, RB.
    apply (LE _ _ (proj1 (FX a IA)) Ft) in RA. apply (LE _ _ (proj1 (FX b IB)) Ft) in RB. refine (proj1 (MUL _ _ _ _)); unfold fpt, px; cbn [fst]; lra.
  - apply (axis_of L k (V t zero) _ px (B2R t) (-1)); try assumption; [now right|intros p; now apply side_90|]. intros a b IA IB RA RB. unfold x_more_equal in RA, RB. cbn [nleb NumF] in RA, RB.
    apply (LE _ _ Ft (proj1 (FX a IA))) in RA. apply (LE _ _ Ft (proj1 (FX b IB))) in RB. rewrite Rmult_comm. refine (proj1 (MUL _ _ _ _)); unfold fpt, px; cbn [fst]; lra.
  - apply (axis_of L k (V zero t) _ py (B2R t) 1); try assumption; [now left|intros p; now apply side_0|]. intros a b IA IB RA RB. unfold y_less_equal in RA, RB. cbn [nleb NumF] in RA, RB.
    apply (LE _ _ (proj2 (FX a IA)) Ft) in RA. apply (LE _ _ (proj2 (FX b IB)) Ft) in RB. refine (proj1 (MUL _ _ _ _)); unfold fpt, py; cbn [snd]; lra.
  - apply (axis_of L k (V zero t) _ py (B2R t) 1); try assumption; [now left|intros p; now apply side_0|]. intros a b IA IB RA RB. unfold y_more_equal in RA, RB. cbn [nleb NumF] in RA, RB.
    apply (LE _ _ Ft (proj2 (FX a IA))) in RA. apply (LE _ _ Ft (proj2 (FX b IB))) in RB. rewrite Rmult_comm. refine (proj1 (MUL _ _ _ _)); unfold fpt, py; cbn [snd]; lra.
Qed.

(** ** Rectangles *)
(** The polygon starting at the next vertex. *)
Definition turned {A} (l : list A) : list A := match l with [] => [] | a :: t => t ++ [a] end.
Lemma path_snd {A} (a : A) l z : List.map snd (path_pairs a l z) = l ++ [z].
Proof. revert a. induction l as [|b l IH]; intros a; cbn [path_pairs List.map snd app]; [reflexivity|]. now rewrite IH. Qed.
Lemma cyc_snd {A} (l : list A) : List.map snd (cyc_pairs l) = turned l.
Proof. destruct l as [|a l]; [reflexivity|]. apply path_snd. Qed.
Lemma clip_all L region l es acc : (forall e, In e es -> region (fst e) = true /\ region (snd e) = true) -> @clip_loop F (NumF L) region l es acc = Ok (acc ++ List.map snd es).
Proof.
  revert acc. induction es as [|[a b] es IH]; intros acc H; cbn [clip_loop List.map snd]; [now rewrite app_nil_r|].
  destruct (H (a, b) (or_introl eq_refl)) as [H0 H1]. cbn [fst snd] in H0, H1. rewrite H0, H1, IH by (intros e He; apply H; now right). now rewrite <- app_assoc.
Qed.
Lemma clip_none L region l es acc : (forall e, In e es -> region (fst e) = false /\ region (snd e) = false) -> @clip_loop F (NumF L) region l es acc = Ok acc.
Proof.
  revert acc. induction es as [|[a b] es IH]; intros acc H; cbn [clip_loop]; [reflexivity|].
  destruct (H (a, b) (or_introl eq_refl)) as [H0 H1]. cbn [fst snd] in H0, H1. rewrite H0, H1. apply IH. intros e He. apply H. now right.
Qed.
Lemma poly_all L region l vs : (forall v, In v vs -> region v = true) -> @get_line_clipped_polygon F (NumF L) region vs l = Ok (turned vs).
Proof. intros H. unfold get_line_clipped_polygon. rewrite clip_all, cyc_snd; [reflexivity|]. intros e He. rewrite cyc_pairs_closed in He. destruct (in_closed _ _ He). split; now apply H. Qed.
Lemma poly_none L region l vs : (forall v, In v vs -> region v = false) -> @get_line_clipped_polygon F (NumF L) region vs l = Ok [].
Proof. intros H. unfold get_line_clipped_polygon. apply clip_none. intros e He. rewrite cyc_pairs_closed in He. destruct (in_closed _ _ He). split; now apply H. Qed.
Lemma in_turned {A} (l : list A) x : In x (turned l) -> In x l.
Proof. destruct l as [|a l]; [intros []|]. cbn [turned]. intros H. apply in_app_iff in H. destruct H as [H|[H|[]]]; [now right|now left]. Qed.
Lemma rect_lines L k (t : F) : trig_accurate L -> (-200 <= k <= 200)%Z -> fbound k t ->
  (exists l, @Line2D_of_angle F (NumF L) (V t (@nlit F (NumF L) 0 1)) (AN (@nlit F (NumF L) 90 1)) = Ok l) /\ (exists l, @Line2D_of_angle F (NumF L) (V (@nlit F (NumF L) 0 1) t) (AN (@nlit F (NumF L) 0 1)) = Ok l).
Proof.
  intros TA Hk [Ft Bt]. destruct (num_F L 0 ltac:(lia)) as [Z1 Z2]. pose proof (bpow_gt_0 radix2 k) as KP. assert (BZ : Rabs (B2R (@nlit F (NumF L) 0 1)) <= bpow radix2 k) by (rewrite Z2, Rabs_R0; lra). split.
  - destruct (lclose2_angle L k (V t (@nlit F (NumF L) 0 1)) (AN (@nlit F (NumF L) 90 1)) Hk TA) as (l & E & _); [repeat split; assumption|exact (proj1 (num_F L 90 ltac:(lia)))|now exists l].
  - destruct (lclose2_angle L k (V (@nlit F (NumF L) 0 1) t) (AN (@nlit F (NumF L) 0 1)) Hk TA) as (l & E & _); [repeat split; assumption|exact Z1|now exists l].
Qed.
(** A polygon with all vertices in the rectangle comes back exactly, starting four
    vertices later; one that is wholly beyond a side (and not cut by the sides treated
    before it) vanishes. *)
Theorem C180_rect_whole_F : forall (L : libm) (k : Z) (r : rect F) (vs : list (vec F)), trig_accurate L -> (-200 <= k <= 200)%Z -> vs <> [] ->
  let le := @Rect2D_left F r in let ri := @Rect2D_right F (NumF L) r in let to := @Rect2D_top F r in let bo := @Rect2D_bottom F (NumF L) r in
  fbound k le -> fbound k ri -> fbound k to -> let res := @Polygon2D_get_rectangle_clipped_polygon F (NumF L) vs r in
  let all (P : vec F -> Prop) := forall v, In v vs -> P v in
  (all (fun v => @Rect2D_contains F (NumF L) r v = true) -> res = Ok (turned (turned (turned (turned vs))))) /\
  (all (fun v => Bleb (vx v) ri = false) -> res = Ok []) /\
  (all (fun v => Bleb (vx v) ri = true /\ Bleb (vy v) bo = false) -> res = Ok []) /\
  (all (fun v => Bleb (vx v) ri = true /\ Bleb (vy v) bo = true /\ Bleb le (vx v) = false) -> res = Ok []) /\
  (all (fun v => Bleb (vx v) ri = true /\ Bleb (vy v) bo = true /\ Bleb le (vx v) = true /\ Bleb to (vy v) = false) -> res = Ok []).
Proof.
  intros L k r vs TA Hk NE le ri to bo Bl Br Bt res all.
  destruct (rect_lines L k ri TA Hk Br) as [(l1 & E1) _]. destruct (rect_lines L k to TA Hk Bt) as [_ (l2 & E2)]. destruct (rect_lines L k le TA Hk Bl) as [(l3 & E3) _].
  assert (RES : res = bind (@get_line_clipped_polygon F (NumF L) (fun v => Bleb (vx v) ri) vs l1) (fun c1 => bind (@get_line_clipped_polygon F (NumF L) (fun v => Bleb (vy v) bo) c1 l2) (fun c2 =>
    bind (@get_line_clipped_polygon F (NumF L) (fun v => Bleb le (vx v)) c2 l3) (fun c3 => @get_line_clipped_polygon F (NumF L) (fun v => Bleb to (vy v)) c3 l2)))).
  { unfold res, Polygon2D_get_rectangle_clipped_polygon. destruct vs as [|v vs]; [now elim NE|]. fold le ri to bo. rewrite E1. cbn [bind]. rewrite E2. cbn [bind]. rewrite E3. reflexivity. }
  assert (T : forall (P : vec F -> bool) ws, (forall v, In v vs -> P v = true) -> (forall v, In v ws -> In v vs) -> forall v, In v ws -> P v = true) by (intros P ws H I v Hv; apply H, I, Hv).
  assert (T' : forall (P : vec F -> bool) ws, (forall v, In v vs -> P v = false) -> (forall v, In v ws -> In v vs) -> forall v, In v ws -> P v = false) by (intros P ws H I v Hv; apply H, I, Hv).
  assert (I1 : forall v, In v (turned vs) -> In v vs) by (intros v; apply in_turned). assert (I2 : forall v, In v (turned (turned vs)) -> In v vs) by (intros v H; apply I1, in_turned, H). assert (I3 : forall v, In v (turned (turned (turned vs))) -> In v vs) by (intros v H; apply I2, in_turned, H).
  assert (N : forall region l, @get_line_clipped_polygon F (NumF L) region [] l = Ok []) by reflexivity.
  rewrite RES. unfold all. split; [|split; [|split; [|split]]]; intros H.
  - assert (H' : forall v, In v vs -> (Bleb le (vx v) = true /\ Bleb (vx v) ri = true) /\ Bleb to (vy v) = true /\ Bleb (vy v) bo = true).
    { intros v Hv. specialize (H v Hv). unfold Rect2D_contains in H. cbn [nleb NumF] in H. apply andb_true_iff in H. destruct H as [H H4]. apply andb_true_iff in H. destruct H as [H H3]. apply andb_true_iff in H. destruct H as [H1 H2]. repeat split; assumption. }
    rewrite poly_all by (intros v Hv; apply H'; assumption). cbn [bind]. rewrite poly_all by (apply T; [intros v Hv; apply H'; assumption|exact I1]). cbn [bind].
    rewrite poly_all by (apply T; [intros v Hv; apply H'; assumption|exact I2]). cbn [bind]. apply poly_all. apply T; [intros v Hv; apply H'; assumption|exact I3].
  - rewrite poly_none by assumption. reflexivity.
  - rewrite poly_all by (intros v Hv; apply H; assumption). cbn [bind]. rewrite poly_none by (apply T'; [intros v Hv; apply H; assumption|exact I1]). reflexivity.
  - rewrite poly_all by (intros v Hv; apply H; assumption). cbn [bind]. rewrite poly_all by (apply T; [intros v Hv; apply H; assumption|exact I1]). cbn [bind]. rewrite poly_none by (apply T'; [intros v Hv; apply H; assumption|exact I2]). reflexivity.
  - rewrite poly_all by (intros v Hv; apply H; assumption). cbn [bind]. rewrite poly_all by (apply T; [intros v Hv; apply H; assumption|exact I1]). cbn [bind]. rewrite poly_all by (apply T; [intros v Hv; apply H; assumption|exact I2]). cbn [bind]. apply poly_none. apply T'; [intros v Hv; apply H; assumption|exact I3].
Qed.

(** ** A touching polygon *)
(** The values of sine and cosine at 0 and 90 degrees in every C library: sin(0) = 0, cos(0) = 1,
    sin(1.5707963267948966) = 1, cos(1.5707963267948966) = 6.123233995736766e-17. *)
Definition right_angles (L : libm) : Prop :=
  lm_sin L (Bmult mode_NE (F_of_Z 0) (@DEG2RAD F (NumF L))) = F_of_Z 0 /\ lm_cos L (Bmult mode_NE (F_of_Z 0) (@DEG2RAD F (NumF L))) = F_of_Z 1 /\
  lm_sin L (Bmult mode_NE (F_of_Z 90) (@DEG2RAD F (NumF L))) = F_of_Z 1 /\ lm_cos L (Bmult mode_NE (F_of_Z 90) (@DEG2RAD F (NumF L))) = Fd 4967757600021511 (-106).
Definition tenth : F := Fd 3602879701896397 (-55).
Lemma pair_some {A B} (a c : A) (b d : B) : Some (a, b) = Some (c, d) -> a = c /\ b = d.
Proof. now intros [= -> ->]. Qed.
Lemma of_0_90 L : @to_angle F (NumF L) (AN (@nlit F (NumF L) 0 1)) = Ok (mkAngle (F_of_Z 0)) /\ @to_angle F (NumF L) (AN (@nlit F (NumF L) 90 1)) = Ok (mkAngle (F_of_Z 90)).
Proof.
  assert (H : forall n, (Z.abs n <? 2 ^ 53)%Z = true -> -180 <= IZR n <= 180 -> @to_angle F (NumF L) (AN (F_of_Z n)) = Ok (mkAngle (F_of_Z n))).
  { intros n B Hn. destruct (F_of_Z_exact n ltac:(now apply Z.ltb_lt)) as [E1 E2]. unfold to_angle, AngleDeg_of_num. destruct (normal_F L (F_of_Z n) E2) as (d & -> & _ & _ & _ & D). cbn [bind]. rewrite D by (rewrite E1; exact Hn). reflexivity. }
  split; [apply (H 0%Z)|apply (H 90%Z)]; try reflexivity; lra.
Qed.
Lemma lines_0_90 L (o : vec F) : right_angles L ->
  @Line2D_of_angle F (NumF L) o (AN (@nlit F (NumF L) 0 1)) = Ok (mkLine (Bopp (F_of_Z 0)) (F_of_Z 1) (Bminus mode_NE (Bmult mode_NE (Bopp (Bopp (F_of_Z 0))) (vx o)) (Bmult mode_NE (F_of_Z 1) (vy o)))) /\
  @Line2D_of_angle F (NumF L) o (AN (@nlit F (NumF L) 90 1)) = Ok (mkLine (Bopp (F_of_Z 1)) (Fd 4967757600021511 (-106)) (Bminus mode_NE (Bmult mode_NE (Bopp (Bopp (F_of_Z 1))) (vx o)) (Bmult mode_NE (Fd 4967757600021511 (-106)) (vy o)))).
Proof.
  intros (S0 & C0 & S9 & C9). destruct (of_0_90 L) as [A0 A9]. unfold Line2D_of_angle. rewrite A0, A9. cbn [bind]. unfold AngleDeg_sin, AngleDeg_cos. cbn [a_degree nsin ncos nmul NumF]. unfold F_math1. rewrite S0, C0, S9, C9. split; reflexivity.
Qed.
(** In exact arithmetic (C73_rect_R) clipping works for polygons that reach exactly to the bottom side.
    In doubles the crossing of the bottom edge can come out below the side by one unit in the last
    place, and the rest of the polygon is lost: the rectangle (0,0)-(3,0.1) clipped to
    (0,0)-(1,0.1) is the single point (1,0). *)
Theorem C180_touching_refuted_F : exists (r : rect F) (vs : list (vec F)) (p : vec F), List.length vs = 4%nat /\ Forall (within 2) vs /\ v_valid p = true /\ forall L : libm, right_angles L ->
  @Rect2D_contains F (NumF L) r p = true /\ (forall v, In v vs -> Bleb (vy v) (@Rect2D_bottom F (NumF L) r) = true) /\
  0 < B2R (vx p) /\ px (fpt p) < B2R (@Rect2D_right F (NumF L) r) /\ strictly_inside (List.map fpt vs) (fpt p) /\
  exists w, @Polygon2D_get_rectangle_clipped_polygon F (NumF L) vs r = Ok [w] /\ fpt w = (1, 0).
Proof.
  exists (mkRect (fv 0 0) (mkSize (F_of_Z 1) tenth) true), [fv 0 0; fv 3 0; mkVec (F_of_Z 3) tenth true; mkVec (F_of_Z 0) tenth true], (mkVec (Fd 1 (-1)) (Fd 1 (-5)) true).
  split; [reflexivity|].
  assert (TB : B2R tenth = 3602879701896397 * bpow radix2 (-55) /\ is_finite tenth = true) by (split; [apply Fd_exact; lia|apply P_SegF3.Fd_finite; lia]). destruct TB as [T1 T2].
  change (bpow radix2 (-55)) with (/ 36028797018963968) in T1.
  destruct (F_of_Z_exact 0 eq_refl) as [Z1 Z2]. destruct (F_of_Z_exact 3 eq_refl) as [H1 H2]. destruct (F_of_Z_exact 1 eq_refl) as [O1 O2].
  assert (P1 : B2R (Fd 1 (-1)) = / 2) by (rewrite Fd_exact by lia; change (bpow radix2 (-1)) with (/ 2); lra). assert (P2 : B2R (Fd 1 (-5)) = / 32) by (rewrite Fd_exact by lia; change (bpow radix2 (-5)) with (/ 32); lra).
  assert (WW : forall a b : F, is_finite a = true -> is_finite b = true -> 0 <= B2R a <= 3 -> 0 <= B2R b <= 3 -> within 2 (mkVec a b true)) by (intros a b A B A' B'; split; [exact A|split; [exact B|]]; cbn [vx vy]; change (bpow radix2 2) with 4; split; rewrite Rabs_pos_eq; lra).
  split; [repeat (constructor; [apply WW; try assumption; lra|]); constructor|]. split; [reflexivity|]. intros L RA.
  assert (AT : B2SF (@Rect2D_bottom F (NumF L) (mkRect (fv 0 0) (mkSize (F_of_Z 1) tenth) true)) = B2SF tenth) by (vm_compute; reflexivity). apply B2SF_inj in AT.
  assert (AR : B2SF (@Rect2D_right F (NumF L) (mkRect (fv 0 0) (mkSize (F_of_Z 1) tenth) true)) = B2SF (F_of_Z 1)) by (vm_compute; reflexivity). apply B2SF_inj in AR.
  split; [vm_compute; reflexivity|]. split.
  { intros v Hv. rewrite AT. destruct Hv as [<-|[<-|[<-|[<-|[]]]]]; vm_compute; reflexivity. }
  cbn [vx]. rewrite AR. unfold fpt, px. cbn [vx vy fst snd]. rewrite P1, P2, O1. split; [lra|]. split; [lra|]. split.
  { cbn [List.map fv vx vy fst snd]. rewrite Z1, H1, T1. intros a b. cbn [closed_edges combine app]. intros Hab. unfold side, cross, psub, px, py.
    destruct Hab as [E|[E|[E|[E|[]]]]]; injection E as <- <-; cbn [fst snd]; lra. }
  unfold Polygon2D_get_rectangle_clipped_polygon. do 2 (rewrite (proj2 (lines_0_90 L _ RA))); rewrite (proj1 (lines_0_90 L _ RA)). cbn [bind].
  match goal with |- exists w, ?t = Ok [w] /\ _ => assert (C : match t with Ok [w] => Some (B2SF (vx w), B2SF (vy w)) | _ => None end = Some (B2SF (F_of_Z 1), B2SF (F_of_Z 0))) by (vm_compute; reflexivity); set (res := t) in * end.
  clearbody res. destruct res as [[|w [|? ?]]|]; try discriminate C. apply pair_some in C. destruct C as [C1 C2]. apply B2SF_inj in C1, C2. exists w. split; [reflexivity|]. now rewrite C1, C2, O1, Z1.
Qed.

Definition libm_right : libm := let z := fun _ : F => F_of_Z 0 in
  {| lm_sin := fun x => if Beqb x (F_of_Z 0) then F_of_Z 0 else F_of_Z 1; lm_cos := fun x => if Beqb x (F_of_Z 0) then F_of_Z 1 else Fd 4967757600021511 (-106);
     lm_tan := z; lm_asin := z; lm_acos := z; lm_atan := z; lm_atan2 := fun _ _ => F_of_Z 0; lm_exp := z; lm_log := z; lm_pow := fun _ _ => F_of_Z 0 |}.
(** The triangle (0,0), (3,0), (0,3), clipped to x <= 1, has edges of all kinds, and is inside the rectangle (0,0)-(4,4). *)
Example C180_nonvacuous : let vs := [fv 0 0; fv 3 0; fv 0 3] in let L := libm_round in let region := @x_less_equal F (NumF L) (F_of_Z 1) in
  trig_accurate L /\ Forall (within 3) vs /\ fbound 3 (F_of_Z 1) /\ within 3 (fv 1 0) /\ arg_ok (AN (F_of_Z 90)) /\
  (forall a b, In a vs -> In b vs -> region a = true -> region b = false -> line_side (fpt (fv 1 0)) (arg_F (AN (F_of_Z 90))) (fpt a) * line_side (fpt (fv 1 0)) (arg_F (AN (F_of_Z 90))) (fpt b) <= 0) /\
  region (fv 0 0) = true /\ region (fv 3 0) = false /\ region (fv 0 3) = true /\
  (forall v, In v vs -> @Rect2D_contains F (NumF L) (mkRect (fv 0 0) (mkSize (F_of_Z 4) (F_of_Z 4)) true) v = true) /\
  right_angles libm_right.
Proof.
  intros vs L region. assert (R1 : region (fv 0 0) = true) by (vm_compute; reflexivity). assert (R2 : region (fv 3 0) = false) by (vm_compute; reflexivity). assert (R3 : region (fv 0 3) = true) by (vm_compute; reflexivity).
  destruct (F_of_Z_exact 1 eq_refl) as [O1 O2]. destruct (F_of_Z_exact 90 eq_refl) as [N1 N2].
  split; [exact libm_round_trig|]. split; [do 3 (apply Forall_cons; [apply within_fv; lia|]); apply Forall_nil|]. split; [split; [exact O2|rewrite O1; change (bpow radix2 3) with 8; rewrite Rabs_pos_eq; lra]|].
  split; [apply within_fv; lia|]. split; [exact N2|]. split.
  { assert (S : forall p, line_side (fpt (fv 1 0)) (arg_F (AN (F_of_Z 90))) p = 1 - px p).
    { intros p. cbn [arg_F]. rewrite N1, fpt_fv by lia. assert (R90 : rad 90 = PI / 2) by (unfold rad; field). unfold line_side, cross, psub, px, py. cbn [fst snd]. rewrite R90, cos_PI2, sin_PI2. ring. }
    intros a b IA IB RA RB. rewrite !S. destruct IA as [<-|[<-|[<-|[]]]], IB as [<-|[<-|[<-|[]]]]; try congruence; rewrite !fpt_fv by lia; unfold px; cbn [fst]; lra. }
  split; [exact R1|]. split; [exact R2|]. split; [exact R3|]. split; [intros v [<-|[<-|[<-|[]]]]; vm_compute; reflexivity|].
  assert (Q0 : Beqb (Bmult mode_NE (F_of_Z 0) (@DEG2RAD F (NumF libm_right))) (F_of_Z 0) = true) by (vm_compute; reflexivity).
  assert (Q9 : Beqb (Bmult mode_NE (F_of_Z 90) (@DEG2RAD F (NumF libm_right))) (F_of_Z 0) = false) by (vm_compute; reflexivity).
  unfold right_angles. cbn [lm_sin lm_cos libm_right]. rewrite Q0, Q9. repeat split.
Qed.
