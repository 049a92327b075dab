(** * P_CircF3: circles cut by segments, rays and circles in doubles (C174) *)
From Coq Require Import ZArith List Bool String Reals Lra Lia Psatz.
From Flocq Require Import Core BinarySingleNaN.
From Verif Require Import Base Types NumR NumF R_Tac Spec Spec2 Abs M_Angle M_Vector M_Line M_Segment M_Ray M_Circle
  L_Angle P_Vector P_Line L_Float P_Float P_AngleF P_Robust P_Hull2 P_VecF P_TrigF P_LineF P_MatF P_CircF P_CircF2 P_RayF P_SegF P_SegF2 P_CutF P_Float P_VecF P_Circle P_LenF P_SectorF P_BisF P_EpsF P_DistF.
Import ListNotations.
Local Open Scope R_scope.

Lemma sq_pos x : 0 <= x * x. Proof. apply Rle_0_sqr. Qed.
Lemma sq_inv x y : 0 <= y -> x * x <= y * y -> Rabs x <= y.
Proof. intros Y H. apply Rabs_le. split; apply Rnot_lt_le; intros N; nra. Qed.

(** ** A point of the circle near the line is near one of the two crossings *)
Section Chord.
  (** unit normal (al, be), signed distance sg, circle of radius r at the origin, half chord h *)
  Variables al be sg r h dl : R.
  Hypothesis U : al * al + be * be = 1.
  Hypothesis HH : sg * sg + h * h = r * r.
  Hypothesis H0 : 0 < h.
  Hypothesis R0 : 0 <= r.
  Hypothesis D0 : 0 <= dl.
  Hypothesis SM : 8 * dl * (r + dl) <= h * h.
  Definition crossing (e : R) : point := (al * sg - be * (e * h), be * sg + al * (e * h)).
  Lemma h_le_r : h <= r.
  Proof. pose proof (sq_pos sg). apply Rnot_lt_le. intros N. nra. Qed.
  Lemma dl_small : 8 * dl <= h.
  Proof. pose proof h_le_r. apply Rnot_lt_le. intros N. assert (h * h < 8 * dl * (r + dl)); [|lra]. assert (h * h <= h * (r + dl)) by (apply Rmult_le_compat_l; lra). assert (h * (r + dl) < 8 * dl * (r + dl)) by (apply Rmult_lt_compat_r; lra). lra. Qed.
  Lemma crossing_near x y : x * x + y * y = r * r -> Rabs (al * x + be * y - sg) <= dl ->
    let t := - be * x + al * y in let E := dl + dl * (2 * r + dl) / h in
    h / 2 <= Rabs t /\ forall e, (e = 1 /\ 0 < t) \/ (e = -1 /\ t < 0) -> Rabs (t - e * h) <= dl * (2 * r + dl) / h /\ Rabs (x - px (crossing e)) <= E /\ Rabs (y - py (crossing e)) <= E.
  Proof.
    intros C N t E. set (n := al * x + be * y) in *. assert (NT : n * n + t * t = r * r).
    { unfold n, t. replace ((al * x + be * y) * (al * x + be * y) + (- be * x + al * y) * (- be * x + al * y)) with ((al * al + be * be) * (x * x + y * y)) by ring. rewrite U, C. ring. }
    assert (SR : Rabs sg <= r) by (apply sq_inv; [exact R0|pose proof (sq_pos h); lra]).
    assert (Q : Rabs (t * t - h * h) <= dl * (2 * r + dl)).
    { replace (t * t - h * h) with (- ((n - sg) * (n + sg))) by lra. rewrite Rabs_Ropp, Rabs_mult. apply Rmult_le_compat; try apply Rabs_pos; [exact N|]. replace (n + sg) with ((n - sg) + 2 * sg) by ring. eapply Rle_trans; [apply Rabs_triang|]. rewrite Rabs_mult, (Rabs_pos_eq 2) by lra. lra. }
    assert (DD : 0 <= dl * dl) by apply sq_pos. assert (RD : 0 <= dl * r) by (apply Rmult_le_pos; assumption).
    assert (Q2 : dl * (2 * r + dl) <= h * h / 4) by lra. assert (T : h / 2 <= Rabs t).
    { apply Rnot_lt_le. intros K. apply Rabs_le_inv in Q. assert (Rabs t * Rabs t < h / 2 * (h / 2)) by (pose proof (Rabs_pos t); nra). rewrite <- Rabs_mult, Rabs_pos_eq in H by apply sq_pos. pose proof (sq_pos h). lra. }
    split; [exact T|]. intros e He. assert (EE : Rabs (t - e * h) <= dl * (2 * r + dl) / h).
    { apply (Rmult_le_reg_r h); [exact H0|]. unfold Rdiv. rewrite Rmult_assoc, Rinv_l, Rmult_1_r by lra. eapply Rle_trans; [|exact Q].
      replace (t * t - h * h) with ((t - e * h) * (t + e * h)) by (destruct He as [[-> _]|[-> _]]; ring). rewrite Rabs_mult. apply Rmult_le_compat_l; [apply Rabs_pos|].
      destruct He as [[-> P]|[-> P]]; [rewrite Rabs_pos_eq; lra|rewrite Rabs_left; lra]. }
    split; [exact EE|]. assert (AB : Rabs al <= 1 /\ Rabs be <= 1) by (split; apply sq_inv; try lra; [pose proof (sq_pos be)|pose proof (sq_pos al)]; lra). destruct AB as [A1 B1].
    set (G := dl * (2 * r + dl) / h) in *. assert (PR : forall c z b, Rabs c <= 1 -> Rabs z <= b -> Rabs (c * z) <= b) by (intros c z b X Y; rewrite Rabs_mult; pose proof (Rabs_pos z); pose proof (Rabs_pos c); nra).
    unfold crossing, px, py. cbn [fst snd]. split.
    - replace (x - (al * sg - be * (e * h))) with (al * (n - sg) + - (be * (t - e * h))).
      2: { unfold n, t. replace (al * (al * x + be * y - sg) + - (be * (- be * x + al * y - e * h))) with ((al * al + be * be) * x - al * sg + be * (e * h)) by ring. rewrite U. ring. }
      eapply Rle_trans; [apply Rabs_triang|]. rewrite Rabs_Ropp. unfold E. apply Rplus_le_compat; apply PR; assumption.
    - replace (y - (be * sg + al * (e * h))) with (be * (n - sg) + al * (t - e * h)).
      2: { unfold n, t. replace (be * (al * x + be * y - sg) + al * (- be * x + al * y - e * h)) with ((al * al + be * be) * y - be * sg - al * (e * h)) by ring. rewrite U. ring. }
      eapply Rle_trans; [apply Rabs_triang|]. unfold E. apply Rplus_le_compat; apply PR; assumption.
  Qed.
  (** two points of the circle near the line and far apart are near different crossings *)
  Lemma crossings_apart x1 y1 x2 y2 : x1 * x1 + y1 * y1 = r * r -> Rabs (al * x1 + be * y1 - sg) <= dl -> x2 * x2 + y2 * y2 = r * r -> Rabs (al * x2 + be * y2 - sg) <= dl ->
    2 * (h * h) <= (x1 - x2) * (x1 - x2) + (y1 - y2) * (y1 - y2) -> exists e, (e = 1 \/ e = -1) /\
      let E := dl + dl * (2 * r + dl) / h in Rabs (x1 - px (crossing e)) <= E /\ Rabs (y1 - py (crossing e)) <= E /\ Rabs (x2 - px (crossing (- e))) <= E /\ Rabs (y2 - py (crossing (- e))) <= E.
  Proof.
    intros C1 N1 C2 N2 FAR. destruct (crossing_near x1 y1 C1 N1) as [T1 K1]. destruct (crossing_near x2 y2 C2 N2) as [T2 K2].
    set (t1 := - be * x1 + al * y1) in *. set (t2 := - be * x2 + al * y2) in *. set (E := dl + _) in *. cbv zeta in K1, K2.
    assert (S : forall t, h / 2 <= Rabs t -> 0 < t \/ t < 0) by (intros t T; destruct (Rtotal_order t 0) as [X|[X|X]]; [right; exact X|exfalso; rewrite X, Rabs_R0 in T; lra|left; exact X]).
    assert (NO : forall e, ((e = 1 /\ 0 < t1) \/ (e = -1 /\ t1 < 0)) -> ((e = 1 /\ 0 < t2) \/ (e = -1 /\ t2 < 0)) -> False).
    { intros e X1 X2. destruct (K1 e X1) as [J1 _]. destruct (K2 e X2) as [J2 _]. set (G := dl * (2 * r + dl) / h) in *.
      assert (GB : G <= h / 4). { unfold G. apply (Rmult_le_reg_r h); [exact H0|]. unfold Rdiv. rewrite Rmult_assoc, Rinv_l, Rmult_1_r by lra. assert (0 <= dl * dl) by apply sq_pos. assert (0 <= dl * r) by (apply Rmult_le_pos; assumption). lra. }
      pose proof dl_small as DS. set (n1 := al * x1 + be * y1) in *. set (n2 := al * x2 + be * y2) in *.
      assert (DE : (x1 - x2) * (x1 - x2) + (y1 - y2) * (y1 - y2) = (n1 - n2) * (n1 - n2) + (t1 - t2) * (t1 - t2)).
      { unfold n1, n2, t1, t2. replace ((al * x1 + be * y1 - (al * x2 + be * y2)) * (al * x1 + be * y1 - (al * x2 + be * y2)) + (- be * x1 + al * y1 - (- be * x2 + al * y2)) * (- be * x1 + al * y1 - (- be * x2 + al * y2))) with ((al * al + be * be) * ((x1 - x2) * (x1 - x2) + (y1 - y2) * (y1 - y2))) by ring. rewrite U. ring. }
      rewrite DE in FAR. assert (B1 : (n1 - n2) * (n1 - n2) <= h * h) by (apply Rabs_le_inv in N1, N2; apply sq_le, Rabs_le; lra). assert (B2 : (t1 - t2) * (t1 - t2) <= h / 2 * (h / 2)) by (apply Rabs_le_inv in J1, J2; apply sq_le, Rabs_le; lra). pose proof (Rmult_lt_0_compat h h H0 H0). lra. }
    destruct (S t1 T1) as [P1|P1]; destruct (S t2 T2) as [P2|P2].
    - exfalso. apply (NO 1); left; split; [reflexivity|exact P1|reflexivity|exact P2].
    - exists 1. split; [now left|]. destruct (K1 1 ltac:(now left)) as (_ & Z1 & Z2). destruct (K2 (-1) ltac:(now right)) as (_ & Z3 & Z4). replace (- (1)) with (-1) by lra. cbv zeta. repeat split; assumption.
    - exists (-1). split; [now right|]. destruct (K1 (-1) ltac:(now right)) as (_ & Z1 & Z2). destruct (K2 1 ltac:(now left)) as (_ & Z3 & Z4). replace (- (-1)) with 1 by lra. cbv zeta. repeat split; assumption.
    - exfalso. apply (NO (-1)); right; split; [reflexivity|exact P1|reflexivity|exact P2].
  Qed.
  Lemma crossing_iff x y : (al * x + be * y = sg /\ x * x + y * y = r * r) <-> (x, y) = crossing 1 \/ (x, y) = crossing (-1).
  Proof.
    split.
    - intros [N C]. destruct (crossing_near x y C) as [T _]; [rewrite N, Rminus_eq_0, Rabs_R0; exact D0|].
      set (t := - be * x + al * y) in *. assert (TT : (t - h) * (t + h) = 0). { assert (NT : (al * x + be * y) * (al * x + be * y) + t * t = r * r). { unfold t. replace ((al * x + be * y) * (al * x + be * y) + (- be * x + al * y) * (- be * x + al * y)) with ((al * al + be * be) * (x * x + y * y)) by ring. rewrite U, C. ring. } rewrite N in NT. lra. }
      assert (XE : x = al * sg - be * t). { rewrite <- N. unfold t. replace (al * (al * x + be * y) - be * (- be * x + al * y)) with ((al * al + be * be) * x) by ring. rewrite U. ring. }
      assert (YE : y = be * sg + al * t). { rewrite <- N. unfold t. replace (be * (al * x + be * y) + al * (- be * x + al * y)) with ((al * al + be * be) * y) by ring. rewrite U. ring. }
      apply Rmult_integral in TT. unfold crossing. destruct TT as [TT|TT]; [left|right]; [replace t with (1 * h) in XE, YE by lra|replace t with (-1 * h) in XE, YE by lra]; now rewrite <- XE, <- YE.
    - assert (G : forall e, e * e = 1 -> (x, y) = crossing e -> al * x + be * y = sg /\ x * x + y * y = r * r).
      { intros e EE K. assert (X := f_equal fst K). assert (Y := f_equal snd K). unfold crossing in X, Y. cbn [fst snd] in X, Y. rewrite X, Y. split.
        - replace (al * (al * sg - be * (e * h)) + be * (be * sg + al * (e * h))) with ((al * al + be * be) * sg) by ring. rewrite U. ring.
        - replace ((al * sg - be * (e * h)) * (al * sg - be * (e * h)) + (be * sg + al * (e * h)) * (be * sg + al * (e * h))) with ((al * al + be * be) * (sg * sg + (e * e) * (h * h))) by ring. rewrite U, EE, <- HH. ring. }
      intros [K|K]; [apply (G 1)|apply (G (-1))]; try assumption; lra.
  Qed.
End Chord.

(** ** The crossings of a circle with a line given by slightly wrong coefficients *)
Lemma core_two cx cy r A B C a b c N M dl h : 0 < N -> N * N = A * A + B * B -> 0 < M -> M * M = a * a + b * b -> N <= 2 * M -> 0 <= r -> 0 < h -> 0 <= dl -> 8 * dl * (r + dl) <= h * h ->
  (forall x y, (x - cx) * (x - cx) + (y - cy) * (y - cy) <= r * r -> Rabs ((A * x + B * y + C) - (a * x + b * y + c)) <= N * dl) ->
  (A * cx + B * cy + C) * (A * cx + B * cy + C) + N * N * (h * h) = N * N * (r * r) ->
  h * h / 2 <= r * r - (a * cx + b * cy + c) * (a * cx + b * cy + c) / (M * M) /\
  forall P' Q', P' <> Q' -> (forall x, on_line a b c x /\ edist (cx, cy) x = r <-> x = P' \/ x = Q') ->
    exists P Q, P <> Q /\ (forall x, on_line A B C x /\ edist (cx, cy) x = r <-> x = P \/ x = Q) /\
      let E := dl + dl * (2 * r + dl) / h in Rabs (px P' - px P) <= E /\ Rabs (py P' - py P) <= E /\ Rabs (px Q' - px Q) <= E /\ Rabs (py Q' - py Q) <= E.
Proof.
  intros N0 NN M0 MM NM R0 H0 D0 SM RES HH. set (al := A / N). set (be := B / N). set (S := A * cx + B * cy + C) in *. set (sg := - S / N). set (s := a * cx + b * cy + c) in *.
  assert (AE : A = N * al) by (unfold al; field; lra). assert (BE : B = N * be) by (unfold be; field; lra). assert (SE : S = - (N * sg)) by (unfold sg; field; lra).
  assert (U : al * al + be * be = 1). { apply (Rmult_eq_reg_l (N * N)); [|nra]. rewrite AE, BE in NN. lra. }
  assert (H1 : sg * sg + h * h = r * r). { apply (Rmult_eq_reg_l (N * N)); [|nra]. rewrite SE in HH. lra. }
  assert (SR : Rabs sg <= r) by (apply sq_inv; [exact R0|pose proof (sq_pos h); lra]).
  (* distance of the center from the second line *)
  assert (DS : Rabs s <= M * (Rabs sg + 2 * dl)).
  { assert (F := RES (cx + al * sg) (cy + be * sg)). replace (cx + al * sg - cx) with (al * sg) in F by ring. replace (cy + be * sg - cy) with (be * sg) in F by ring.
    replace (al * sg * (al * sg) + be * sg * (be * sg)) with ((al * al + be * be) * (sg * sg)) in F by ring. rewrite U in F. specialize (F ltac:(pose proof (sq_pos h); lra)).
    replace (A * (cx + al * sg) + B * (cy + be * sg) + C) with 0 in F.
    2: { replace (A * (cx + al * sg) + B * (cy + be * sg) + C) with (S + (A * al + B * be) * sg) by (unfold S; ring). rewrite SE, AE, BE. replace (N * al * al + N * be * be) with (N * (al * al + be * be)) by ring. rewrite U. ring. }
    replace (a * (cx + al * sg) + b * (cy + be * sg) + c) with (s + (a * al + b * be) * sg) in F by (unfold s; ring).
    assert (CS : Rabs (a * al + b * be) <= M). { apply sq_inv; [lra|]. rewrite MM. pose proof (sq_pos (a * be - b * al)). replace (a * a + b * b) with ((a * a + b * b) * (al * al + be * be)) by (rewrite U; ring). lra. }
    replace s with ((s + (a * al + b * be) * sg - 0) + - ((a * al + b * be) * sg)) by ring. eapply Rle_trans; [apply Rabs_triang|]. rewrite Rabs_Ropp, Rabs_mult.
    rewrite Rabs_minus_sym in F. assert (Rabs (a * al + b * be) * Rabs sg <= M * Rabs sg) by (apply Rmult_le_compat_r; [apply Rabs_pos|exact CS]). assert (N * dl <= 2 * M * dl) by (apply Rmult_le_compat_r; lra). lra. }
  assert (S2 : s * s / (M * M) <= (Rabs sg + 2 * dl) * (Rabs sg + 2 * dl)).
  { apply (Rmult_le_reg_r (M * M)); [nra|]. unfold Rdiv. rewrite Rmult_assoc, Rinv_l, Rmult_1_r by nra. replace ((Rabs sg + 2 * dl) * (Rabs sg + 2 * dl) * (M * M)) with (M * (Rabs sg + 2 * dl) * (M * (Rabs sg + 2 * dl))) by ring. apply sq_le. exact DS. }
  assert (SA : Rabs sg * Rabs sg = sg * sg) by (rewrite <- Rabs_mult; apply Rabs_pos_eq, sq_pos).
  assert (HP : h * h / 2 <= r * r - s * s / (M * M)). { assert (dl * Rabs sg <= dl * r) by (apply Rmult_le_compat_l; lra). lra. }
  split; [exact HP|]. intros P' Q' NE IFF.
  assert (ON : forall x, on_line a b c x -> edist (cx, cy) x = r -> (px x - cx) * (px x - cx) + (py x - cy) * (py x - cy) = r * r /\ Rabs (al * (px x - cx) + be * (py x - cy) - sg) <= dl).
  { intros x O K. apply edist_sq in K; [|exact R0]. split; [exact K|]. assert (F := RES (px x) (py x) ltac:(lra)). unfold on_line in O. rewrite O, Rminus_0_r in F.
    replace (A * px x + B * py x + C) with (N * (al * (px x - cx) + be * (py x - cy) - sg)) in F. 2: { replace (N * (al * (px x - cx) + be * (py x - cy) - sg)) with (N * al * (px x - cx) + N * be * (py x - cy) - N * sg) by ring. rewrite <- AE, <- BE. unfold S in SE. lra. }
    rewrite Rabs_mult, (Rabs_pos_eq N) in F by lra. apply (Rmult_le_reg_l N); assumption. }
  destruct (proj2 (IFF P') ltac:(now left)) as [O1 K1]. destruct (proj2 (IFF Q') ltac:(now right)) as [O2 K2]. destruct (ON _ O1 K1) as [C1 N1]. destruct (ON _ O2 K2) as [C2 N2].
  (* the chord of the second line *)
  set (h2 := sqrt (r * r - s * s / (M * M))). assert (HH2 : h2 * h2 = r * r - s * s / (M * M)) by (apply sqrt_sqrt; pose proof (sq_pos h); lra).
  set (f := fun e : R => (cx - s / (M * M) * a - e * (h2 / M) * b, cy - s / (M * M) * b + e * (h2 / M) * a) : point).
  assert (FO : forall e, e * e = 1 -> on_line a b c (f e) /\ edist (cx, cy) (f e) = r).
  { intros e EE. unfold f. split.
    - unfold on_line, px, py. cbn [fst snd]. replace (a * (cx - s / (M * M) * a - e * (h2 / M) * b) + b * (cy - s / (M * M) * b + e * (h2 / M) * a) + c) with (s - s / (M * M) * (a * a + b * b)) by (unfold s; ring). rewrite <- MM. field. lra.
    - apply edist_sq; [exact R0|]. unfold px, py. cbn [fst snd].
      replace ((cx - s / (M * M) * a - e * (h2 / M) * b - cx) * (cx - s / (M * M) * a - e * (h2 / M) * b - cx) + (cy - s / (M * M) * b + e * (h2 / M) * a - cy) * (cy - s / (M * M) * b + e * (h2 / M) * a - cy)) with ((a * a + b * b) * (s / (M * M) * (s / (M * M)) + e * e * (h2 * h2 / (M * M)))) by (field; lra).
      rewrite <- MM, EE, HH2. field. lra. }
  assert (FD : f 1 <> f (-1)). { intros K. assert (X := f_equal fst K). assert (Y := f_equal snd K). unfold f in X, Y. cbn [fst snd] in X, Y. assert (Z : (h2 / M * b) * (h2 / M * b) + (h2 / M * a) * (h2 / M * a) = 0) by (replace (h2 / M * b) with 0 by lra; replace (h2 / M * a) with 0 by lra; ring).
    replace (h2 / M * b * (h2 / M * b) + h2 / M * a * (h2 / M * a)) with ((a * a + b * b) / (M * M) * (h2 * h2)) in Z by (field; lra). rewrite <- MM in Z. replace (M * M / (M * M)) with 1 in Z by (field; lra). pose proof (Rmult_lt_0_compat h h H0 H0). lra. }
  assert (FAR : 2 * (h * h) <= (px P' - cx - (px Q' - cx)) * (px P' - cx - (px Q' - cx)) + (py P' - cy - (py Q' - cy)) * (py P' - cy - (py Q' - cy))).
  { assert (G : forall e, e * e = 1 -> 2 * (h * h) <= (px (f e) - cx - (px (f (- e)) - cx)) * (px (f e) - cx - (px (f (- e)) - cx)) + (py (f e) - cy - (py (f (- e)) - cy)) * (py (f e) - cy - (py (f (- e)) - cy))).
    { intros e EE. unfold f, px, py. cbn [fst snd].
      replace ((cx - s / (M * M) * a - e * (h2 / M) * b - cx - (cx - s / (M * M) * a - - e * (h2 / M) * b - cx)) * (cx - s / (M * M) * a - e * (h2 / M) * b - cx - (cx - s / (M * M) * a - - e * (h2 / M) * b - cx)) + (cy - s / (M * M) * b + e * (h2 / M) * a - cy - (cy - s / (M * M) * b + - e * (h2 / M) * a - cy)) * (cy - s / (M * M) * b + e * (h2 / M) * a - cy - (cy - s / (M * M) * b + - e * (h2 / M) * a - cy))) with (4 * (e * e) * ((a * a + b * b) / (M * M)) * (h2 * h2)) by (field; lra).
      rewrite EE, <- MM, HH2. replace (M * M / (M * M)) with 1 by (field; lra). lra. }
    destruct (FO 1 ltac:(lra)) as [X1 X2]. destruct (FO (-1) ltac:(lra)) as [Y1 Y2]. destruct (proj1 (IFF _) (conj X1 X2)) as [X|X]; destruct (proj1 (IFF _) (conj Y1 Y2)) as [Y|Y]; try (exfalso; apply FD; congruence).
    - rewrite <- X, <- Y. replace (-1) with (- (1)) by lra. apply G. lra.
    - rewrite <- X, <- Y. replace (f 1) with (f (- (-1))) by (f_equal; lra). apply G. lra. }
  destruct (crossings_apart al be sg r h dl U H1 H0 R0 D0 SM _ _ _ _ C1 N1 C2 N2 FAR) as (e & HE & E1 & E2 & E3 & E4).
  set (cr := fun e => (cx + px (crossing al be sg h e), cy + py (crossing al be sg h e)) : point).
  assert (CI : forall x, on_line A B C x /\ edist (cx, cy) x = r <-> x = cr 1 \/ x = cr (-1)).
  { intros x. rewrite edist_sq by exact R0. assert (Z := crossing_iff al be sg r h dl U H1 H0 R0 D0 SM (px x - cx) (py x - cy)).
    assert (LN : on_line A B C x <-> al * (px x - cx) + be * (py x - cy) = sg). { unfold on_line. replace (A * px x + B * py x + C) with (N * (al * (px x - cx) + be * (py x - cy) - sg)). 2: { replace (N * (al * (px x - cx) + be * (py x - cy) - sg)) with (N * al * (px x - cx) + N * be * (py x - cy) - N * sg) by ring. rewrite <- AE, <- BE. unfold S in SE. lra. } split; intros K; [apply Rmult_integral in K; destruct K; lra|rewrite K; ring]. }
    assert (CE : forall e, x = cr e <-> (px x - cx, py x - cy) = crossing al be sg h e).
    { intros e0. unfold cr, px, py. destruct x as [x y]. cbn [fst snd]. split; intros K; [assert (X := f_equal fst K); assert (Y := f_equal snd K)|assert (X := f_equal fst K); assert (Y := f_equal snd K)]; cbn [fst snd] in X, Y; [rewrite (surjective_pairing (crossing al be sg h e0))|]; f_equal; lra. }
    rewrite LN, !CE. exact Z. }
  assert (DI : cr 1 <> cr (-1)). { intros K. assert (X := f_equal fst K). assert (Y := f_equal snd K). unfold cr, crossing, px, py in X, Y. cbn [fst snd] in X, Y. assert (Z : (be * h) * (be * h) + (al * h) * (al * h) = 0) by (replace (be * h) with 0 by lra; replace (al * h) with 0 by lra; ring). replace (be * h * (be * h) + al * h * (al * h)) with ((al * al + be * be) * (h * h)) in Z by ring. rewrite U in Z. pose proof (Rmult_lt_0_compat h h H0 H0). lra. }
  assert (SH : forall p e, Rabs (p - cx - px (crossing al be sg h e)) = Rabs (p - px (cr e))) by (intros p e0; f_equal; unfold cr, px; cbn [fst]; ring). assert (SV : forall p e, Rabs (p - cy - py (crossing al be sg h e)) = Rabs (p - py (cr e))) by (intros p e0; f_equal; unfold cr, py; cbn [snd]; ring).
  rewrite SH in E1, E3. rewrite SV in E2, E4. destruct HE as [-> | ->].
  - exists (cr 1), (cr (-1)). replace (- (1)) with (-1) in E3, E4 by lra. split; [exact DI|]. split; [exact CI|]. cbv zeta. repeat split; assumption.
  - exists (cr (-1)), (cr 1). replace (- (-1)) with 1 in E3, E4 by lra. split; [intros K; apply DI; now symmetry|]. split; [intros x; rewrite CI; tauto|]. cbv zeta. repeat split; assumption.
Qed.
(** ** A circle clearly away from the line *)
Lemma core_none cx cy r A B C a b c N M dl mu : 0 < N -> N * N = A * A + B * B -> 0 < M -> M * M = a * a + b * b -> 0 <= r -> 0 <= dl -> 2 * dl <= mu ->
  (forall x y, (x - cx) * (x - cx) + (y - cy) * (y - cy) <= (r + mu) * (r + mu) -> Rabs ((A * x + B * y + C) - (a * x + b * y + c)) <= N * dl) ->
  N * (r + mu) <= Rabs (A * cx + B * cy + C) -> r * r - (a * cx + b * cy + c) * (a * cx + b * cy + c) / (M * M) <= - (mu * (r + mu / 4)).
Proof.
  intros N0 NN M0 MM R0 D0 DM RES FAR. set (s := a * cx + b * cy + c) in *. set (d := Rabs s / M). assert (DE : s * s / (M * M) = d * d). { unfold d. replace (s * s) with (Rabs s * Rabs s) by (rewrite <- Rabs_mult; apply Rabs_pos_eq, sq_pos). field. lra. }
  assert (D1 : 0 <= d) by (unfold d; apply Rmult_le_pos; [apply Rabs_pos|left; now apply Rinv_0_lt_compat]). rewrite DE.
  destruct (Rle_lt_dec (r + mu / 2) d) as [K|K]; [assert ((r + mu / 2) * (r + mu / 2) <= d * d) by (apply Rmult_le_compat; lra); lra|]. exfalso.
  assert (F := RES (cx - s / (M * M) * a) (cy - s / (M * M) * b)). replace (cx - s / (M * M) * a - cx) with (- (s / (M * M) * a)) in F by ring. replace (cy - s / (M * M) * b - cy) with (- (s / (M * M) * b)) in F by ring.
  replace (- (s / (M * M) * a) * - (s / (M * M) * a) + - (s / (M * M) * b) * - (s / (M * M) * b)) with (s * s / (M * M) * ((a * a + b * b) / (M * M))) in F by (field; lra). rewrite <- MM, DE in F. replace (M * M / (M * M)) with 1 in F by (field; lra).
  specialize (F ltac:(rewrite Rmult_1_r; apply Rmult_le_compat; lra)). replace (a * (cx - s / (M * M) * a) + b * (cy - s / (M * M) * b) + c) with 0 in F.
  2: { replace (a * (cx - s / (M * M) * a) + b * (cy - s / (M * M) * b) + c) with (s - s / (M * M) * (a * a + b * b)) by (unfold s; ring). rewrite <- MM. field. lra. }
  set (S := A * cx + B * cy + C) in *. replace (A * (cx - s / (M * M) * a) + B * (cy - s / (M * M) * b) + C) with (S - s / M * ((A * a + B * b) / M)) in F by (unfold S; field; lra).
  assert (CS : Rabs ((A * a + B * b) / M) <= N). { apply sq_inv; [lra|]. apply (Rmult_le_reg_r (M * M)); [nra|]. replace ((A * a + B * b) / M * ((A * a + B * b) / M) * (M * M)) with ((A * a + B * b) * (A * a + B * b)) by (field; lra). rewrite NN, MM. pose proof (sq_pos (A * b - B * a)). lra. }
  assert (SM : Rabs (s / M) = d) by (unfold d, Rdiv; rewrite Rabs_mult, Rabs_inv, (Rabs_pos_eq M) by lra; reflexivity).
  assert (P : Rabs (s / M * ((A * a + B * b) / M)) <= d * N) by (rewrite Rabs_mult, SM; apply Rmult_le_compat_l; assumption).
  assert (T : Rabs S <= N * dl + d * N). { replace S with ((S - s / M * ((A * a + B * b) / M) - 0) + s / M * ((A * a + B * b) / M)) by ring. eapply Rle_trans; [apply Rabs_triang|]. lra. }
  assert (N * (r + mu) <= N * (d + dl)) by lra. apply Rmult_le_reg_l in H; lra.
Qed.

(** ** In doubles *)
Definition two_hits (e : R) (c : point) (r : R) (S : point -> Prop) (res : res (list (vec F))) : Prop :=
  exists P Q, P <> Q /\ (forall x, S x /\ edist c x = r <-> x = P \/ x = Q) /\
    exists v w, coords_near e v P /\ coords_near e w Q /\ (res = Ok [v; w] \/ (res = Ok [v] /\ weakly_near v w)).
Lemma near_plus e E v P P' : coords_near e v P' -> Rabs (px P' - px P) <= E -> Rabs (py P' - py P) <= E -> coords_near (e + E) v P.
Proof.
  intros (F1 & F2 & N1 & N2) X Y. split; [exact F1|]. split; [exact F2|]. apply Rabs_le_inv in N1, N2, X, Y. split; apply Rabs_le; lra.
Qed.
Lemma near_le e e' v P : e <= e' -> coords_near e v P -> coords_near e' v P.
Proof. intros H (F1 & F2 & N1 & N2). split; [exact F1|]. split; [exact F2|]. split; lra. Qed.
(** the second line: close coefficients *)
Lemma lclose2_res g i k A B C l x y : (-500 <= k <= 500)%Z -> lclose2 g i k A B C l -> Rabs x <= bpow radix2 (k + 2) -> Rabs y <= bpow radix2 (k + 2) ->
  Rabs ((A * x + B * y + C) - (B2R (l_a l) * x + B2R (l_b l) * y + B2R (l_c l))) <= bpow radix2 (i + k - g + 4).
Proof.
  intros Hk ((_ & _ & A1) & (_ & _ & B1) & (_ & _ & C1) & _) X Y.
  replace ((A * x + B * y + C) - (B2R (l_a l) * x + B2R (l_b l) * y + B2R (l_c l))) with (- ((B2R (l_a l) - A) * x) + (- ((B2R (l_b l) - B) * y) + - (B2R (l_c l) - C))) by ring.
  assert (P1 : Rabs ((B2R (l_a l) - A) * x) <= bpow radix2 (i - g) * bpow radix2 (k + 2)) by (rewrite Rabs_mult; apply Rmult_le_compat; try apply Rabs_pos; assumption).
  assert (P2 : Rabs ((B2R (l_b l) - B) * y) <= bpow radix2 (i - g) * bpow radix2 (k + 2)) by (rewrite Rabs_mult; apply Rmult_le_compat; try apply Rabs_pos; assumption).
  rewrite <- bpow_plus in P1, P2. set (z := bpow radix2 (i + k - g)) in *. pose proof (bpow_gt_0 radix2 (i + k - g)) as ZP. fold z in ZP.
  replace (i - g + (k + 2))%Z with (2 + (i + k - g))%Z in P1, P2 by lia. replace (i + k - g + 1)%Z with (1 + (i + k - g))%Z in C1 by lia. replace (i + k - g + 4)%Z with (4 + (i + k - g))%Z by lia. rewrite bpow_plus in P1, P2, C1 |- *. fold z in P1, P2, C1 |- *.
  change (bpow radix2 2) with 4 in P1, P2. change (bpow radix2 1) with 2 in C1. change (bpow radix2 4) with 16.
  eapply Rle_trans; [apply Rabs_triang|]. rewrite Rabs_Ropp. assert (T := Rabs_triang (- ((B2R (l_b l) - B) * y)) (- (B2R (l_c l) - C))). rewrite !Rabs_Ropp in T. lra.
Qed.
Lemma lclose2_norm g i k A B C l N M : lclose2 g i k A B C l -> 0 < N -> N * N = A * A + B * B -> 0 <= M -> M * M = B2R (l_a l) * B2R (l_a l) + B2R (l_b l) * B2R (l_b l) -> 3 * bpow radix2 (i - g) <= M -> N <= 2 * M.
Proof.
  intros ((_ & _ & A1) & (_ & _ & B1) & _) N0 NN M0 MM T. set (t := bpow radix2 (i - g)) in *. pose proof (bpow_gt_0 radix2 (i - g)) as TP. fold t in TP. set (a := B2R (l_a l)) in *. set (b := B2R (l_b l)) in *.
  assert (Aa : Rabs a <= M) by (apply sq_inv; [exact M0|pose proof (sq_pos b); lra]). assert (Bb : Rabs b <= M) by (apply sq_inv; [exact M0|pose proof (sq_pos a); lra]).
  assert (G : forall x y, Rabs x <= M -> Rabs (x - y) <= t -> y * y <= x * x + 2 * t * M + t * t).
  { intros x y X Y. replace (y * y) with (x * x - 2 * x * (x - y) + (x - y) * (x - y)) by ring. apply sq_le in Y as Y2. assert (Z : Rabs (x * (x - y)) <= M * t) by (rewrite Rabs_mult; apply Rmult_le_compat; try apply Rabs_pos; assumption). apply Rabs_le_inv in Z. lra. }
  assert (G1 := G a A Aa A1). assert (G2 := G b B Bb B1). apply Rnot_lt_le. intros K. assert (2 * M * (2 * M) < N * N) by nra. assert (t * M <= M / 3 * M) by (apply Rmult_le_compat_r; lra). assert (t * t <= M / 3 * (M / 3)) by (apply Rmult_le_compat; lra). assert (0 <= M * M) by apply sq_pos. nra.
Qed.
Section Hits.
  Variables (L : libm) (g i k : Z) (ci : circle F) (l : line F) (A B C N d d' w m K1 K2 : R) (res : res (list (vec F))).
  Hypothesis Hk : (-90 <= k <= 90)%Z.
  Hypothesis WC : within k (c_center ci).
  Hypothesis FR : fbound k (c_radius ci).
  Notation r := (B2R (c_radius ci)).
  Notation c := (fpt (c_center ci)).
  Hypothesis R0 : 0 <= r.
  Hypothesis LC : lclose2 g i k A B C l.
  Hypothesis N0 : 0 < N.
  Hypothesis NN : N * N = A * A + B * B.
  Hypothesis FARL : 3 * bpow radix2 (i - g) <= sqrt (B2R (l_a l) * B2R (l_a l) + B2R (l_b l) * B2R (l_b l)).
  Hypothesis MD : is_min_dist (on_line A B C) c d.
  Hypothesis MD' : is_min_dist (fline l) c d'.
  Hypothesis W4 : 4 <= w.
  Hypothesis K10 : 0 <= K1.
  Hypothesis M00 : 0 <= m.
  Hypothesis HX : 1 / 999999 + m <= w * (r * r - d' * d') -> two_hits (K1 / sqrt (w * (r * r - d' * d')) + K2) c r (fline l) res.
  Hypothesis HN : w * (r * r - d' * d') + m <= - (1 / 999999) -> res = Ok [].
  Let dl := bpow radix2 (i + k - g + 4) / N.
  Let M := sqrt (B2R (l_a l) * B2R (l_a l) + B2R (l_b l) * B2R (l_b l)).
  Let z := B2R (l_a l) * px c + B2R (l_b l) * py c + B2R (l_c l).
  Lemma M_facts : 0 < M /\ M * M = B2R (l_a l) * B2R (l_a l) + B2R (l_b l) * B2R (l_b l) /\ N <= 2 * M /\ 0 < dl /\ N * dl = bpow radix2 (i + k - g + 4) /\ d' * d' = z * z / (M * M) /\
    (A * px c + B * py c + C) * (A * px c + B * py c + C) = N * N * (d * d) /\ 0 <= d.
  Proof.
    pose proof (bpow_gt_0 radix2 (i - g)) as P. fold M in FARL. assert (MP : 0 < M) by lra. assert (MM : M * M = B2R (l_a l) * B2R (l_a l) + B2R (l_b l) * B2R (l_b l)) by (apply sqrt_sqrt; apply Rplus_le_le_0_compat; apply sq_pos).
    split; [exact MP|]. split; [exact MM|]. split; [exact (lclose2_norm g i k A B C l N M LC N0 NN ltac:(lra) MM FARL)|]. split; [apply Rdiv_lt_0_compat; [apply bpow_gt_0|exact N0]|]. split; [unfold dl; field; lra|].
    split; [rewrite MM; apply line_d2; [rewrite <- MM; pose proof (Rmult_lt_0_compat M M MP MP); lra|exact MD']|]. split.
    - rewrite (line_d2 A B C c d ltac:(rewrite <- NN; pose proof (Rmult_lt_0_compat N N N0 N0); lra) MD), <- NN. field. lra.
    - destruct MD as [[q [_ <-]] _]. apply edist_nonneg.
  Qed.
  Lemma in_reach x y t : 0 <= t <= bpow radix2 (k + 1) -> (x - px c) * (x - px c) + (y - py c) * (y - py c) <= (r + t) * (r + t) -> Rabs x <= bpow radix2 (k + 2) /\ Rabs y <= bpow radix2 (k + 2).
  Proof.
    intros Ht K. destruct WC as (_ & _ & X & Y). destruct FR as [_ Fr]. rewrite Rabs_pos_eq in Fr by exact R0. pose proof (bpow_gt_0 radix2 k) as KP.
    replace (bpow radix2 (k + 2)) with (4 * bpow radix2 k) by (rewrite (Z.add_comm k 2), bpow_plus; reflexivity). rewrite (Z.add_comm k 1), bp2 in Ht. unfold fpt, px, py in *. cbn [fst snd] in *.
    assert (U : Rabs (x - B2R (vx (c_center ci))) <= r + t) by (apply sq_inv; [lra|pose proof (sq_pos (y - B2R (vy (c_center ci)))); lra]).
    assert (V : Rabs (y - B2R (vy (c_center ci))) <= r + t) by (apply sq_inv; [lra|pose proof (sq_pos (x - B2R (vx (c_center ci)))); lra]).
    apply Rabs_le_inv in U, V, X, Y. split; apply Rabs_le; lra.
  Qed.
  Lemma hits_two h : 0 < h -> d * d + h * h = r * r -> 8 * dl * (r + dl) <= h * h -> 1 / 999999 + m <= 2 * (h * h) ->
    two_hits (K1 / h + K2 + (dl + dl * (2 * r + dl) / h)) c r (on_line A B C) res.
  Proof.
    intros H0 HH S1 S2. destruct M_facts as (MP & MM & NM & DP & ND & D2 & DD & _).
    destruct (core_two (px c) (py c) r A B C (B2R (l_a l)) (B2R (l_b l)) (B2R (l_c l)) N M dl h N0 NN MP MM NM R0 H0 ltac:(lra) S1) as [G1 G2].
    { intros x y K. rewrite ND. destruct (in_reach x y 0) as [X Y]; [split; [lra|apply bpow_ge_0]|rewrite Rplus_0_r; exact K|]. apply lclose2_res; try assumption. lia. }
    { rewrite DD. replace (r * r) with (d * d + h * h) by exact HH. ring. }
    fold z in G1. rewrite <- D2 in G1. pose proof (Rmult_lt_0_compat h h H0 H0) as HP.
    assert (DB : 2 * (h * h) <= w * (r * r - d' * d')) by (assert (4 * (h * h / 2) <= w * (r * r - d' * d')) by (apply Rmult_le_compat; lra); lra).
    destruct (HX ltac:(lra)) as (P' & Q' & NE & IFF & v & v2 & V1 & V2 & RS).
    destruct (G2 P' Q' NE) as (P & Q & NE' & IFF' & E1 & E2 & E3 & E4); [exact IFF|]. exists P, Q. split; [exact NE'|]. split; [exact IFF'|]. exists v, v2.
    assert (SQ : h <= sqrt (w * (r * r - d' * d'))) by (rewrite <- (sqrt_square h) at 1 by lra; apply sqrt_le_1_alt; lra).
    assert (KE : K1 / sqrt (w * (r * r - d' * d')) + K2 <= K1 / h + K2) by (apply Rplus_le_compat_r; apply Rmult_le_compat_l; [exact K10|]; apply Rinv_le_contravar; lra).
    split; [|split; [|exact RS]]; apply (near_plus _ _ _ _ P') + apply (near_plus _ _ _ _ Q'); try assumption; eapply near_le; eassumption.
  Qed.
  Lemma hits_none mu : 2 * dl <= mu <= bpow radix2 (k + 1) -> r + mu <= d -> 1 / 999999 + m <= mu * (4 * r + mu) -> res = Ok [].
  Proof.
    intros Hm Hd S. destruct M_facts as (MP & MM & NM & DP & ND & D2 & DD & D00).
    assert (G := core_none (px c) (py c) r A B C (B2R (l_a l)) (B2R (l_b l)) (B2R (l_c l)) N M dl mu N0 NN MP MM R0 ltac:(lra) ltac:(lra)). fold z in G. rewrite <- D2 in G.
    assert (Y : r * r - d' * d' <= - (mu * (r + mu / 4))).
    { apply G.
      - intros x y K. rewrite ND. destruct (in_reach x y mu) as [X Y]; [lra|exact K|]. apply lclose2_res; try assumption. lia.
      - replace (Rabs (A * px c + B * py c + C)) with (N * d); [apply Rmult_le_compat_l; lra|]. symmetry. apply Rsqr_inj; [apply Rabs_pos|apply Rmult_le_pos; lra|]. unfold Rsqr. rewrite <- Rabs_mult, Rabs_pos_eq by apply sq_pos. rewrite DD. ring. }
    apply HN. assert (0 <= mu * (r + mu / 4)) by (apply Rmult_le_pos; lra). assert (w * (mu * (r + mu / 4)) >= 4 * (mu * (r + mu / 4))) by (apply Rle_ge, Rmult_le_compat_r; lra).
    assert (w * (r * r - d' * d') <= w * - (mu * (r + mu / 4))) by (apply Rmult_le_compat_l; lra). lra.
  Qed.
End Hits.

(** A line the circle code can handle: not nearly horizontal (its slope is at least 2^(2-p)), or exactly horizontal. *)
Definition steep (g i k p : Z) (A B C : R) : Prop :=
  2 / 999999 <= Rabs A /\ bpow radix2 (i - g + 2) <= Rabs A /\ Rabs B <= bpow radix2 (p - 2) * Rabs A /\ Rabs C <= bpow radix2 (k + p - 1) * Rabs A.
Definition level (g i k : Z) (A B C : R) (l : line F) : Prop :=
  B2R (l_a l) = 0 /\ 2 / 999999 <= Rabs B /\ bpow radix2 (i - g + 2) <= Rabs B /\ Rabs C <= bpow radix2 (k + 1) * Rabs B.
(** the error in the crossings: p from the slope, h the half chord, dl the error of the line *)
Definition cross_err (k p : Z) (r h dl : R) : R := bpow radix2 (2 * k + 5 * p - 39) / h + bpow radix2 (k + 4 * p - 43) + (dl + dl * (2 * r + dl) / h).
Lemma line_hits L g i k p ci l A B C N d : pow_accurate L -> (40 <= g <= 48)%Z -> (-150 <= i <= 150)%Z -> (-60 <= k <= 60)%Z -> (2 <= p <= 20)%Z ->
  within k (c_center ci) -> fbound k (c_radius ci) -> 0 <= B2R (c_radius ci) -> lclose2 g i k A B C l -> (steep g i k p A B C \/ level g i k A B C l) -> 0 < N -> N * N = A * A + B * B ->
  is_min_dist (on_line A B C) (fpt (c_center ci)) d ->
  let r := B2R (c_radius ci) in let dl := bpow radix2 (i + k - g + 4) / N in let m := bpow radix2 (2 * k + 4 * p - 40) in let res := @Circle2D_intersection F (NumF L) ci (VLine l) in
  (forall h, 0 < h -> d * d + h * h = r * r -> 8 * dl * (r + dl) <= h * h -> 1 / 999999 + m <= 2 * (h * h) -> two_hits (cross_err k p r h dl) (fpt (c_center ci)) r (on_line A B C) res) /\
  (forall mu, 2 * dl <= mu <= bpow radix2 (k + 1) -> r + mu <= d -> 1 / 999999 + m <= mu * (4 * r + mu) -> res = Ok []).
Proof.
  intros PA Hg Hi Hk Hp WC FR R0 LC SL N0 NN MD r dl m res.
  assert (LC0 := LC). destruct LC0 as ((Fa & Ba & Ea) & (Fb & Bb & Eb) & (Fc & Bc & Ec) & _).
  set (a := B2R (l_a l)) in *. set (b := B2R (l_b l)) in *. set (c := B2R (l_c l)) in *. set (t := bpow radix2 (i - g)) in *. pose proof (bpow_gt_0 radix2 (i - g)) as TP. fold t in TP. pose proof (bpow_gt_0 radix2 k) as KP. pose proof (Rmult_lt_0_compat _ _ KP TP) as KT.
  assert (T4 : bpow radix2 (i - g + 2) = 4 * t) by (unfold t; rewrite (Z.add_comm (i - g)), bpow_plus; reflexivity).
  assert (TK : bpow radix2 (i + k - g + 1) = 2 * (bpow radix2 k * t)) by (unfold t; replace (i + k - g + 1)%Z with (1 + (k + (i - g)))%Z by lia; rewrite !bpow_plus; reflexivity).
  assert (HF : forall x X, 4 * t <= Rabs X -> Rabs (x - X) <= t -> 3 * t <= Rabs x /\ Rabs X <= 2 * Rabs x).
  { intros x X H1 H2. assert (Rabs X - t <= Rabs x); [|split; lra]. pose proof (Rabs_triang_inv X (X - x)) as Q. rewrite (Rabs_minus_sym X x) in Q. replace (X - (X - x)) with x in Q by ring. lra. }
  assert (UP : forall x X e, Rabs (x - X) <= e -> Rabs x <= Rabs X + e) by (intros x X e H; replace x with (X + (x - X)) by ring; eapply Rle_trans; [apply Rabs_triang|]; lra).
  assert (W' : forall j, (k <= j)%Z -> within j (c_center ci)) by (intros j J; destruct WC as (X1 & X2 & X3 & X4); assert (bpow radix2 k <= bpow radix2 j) by (apply bpow_le; lia); repeat split; try assumption; lra).
  assert (FR' : forall j, (k <= j)%Z -> fbound j (c_radius ci)) by (intros j J; destruct FR as [X1 X2]; assert (bpow radix2 k <= bpow radix2 j) by (apply bpow_le; lia); split; [exact X1|lra]).
  assert (FARL : 3 * t <= sqrt (a * a + b * b) /\ 0 < a * a + b * b).
  { assert (Q : 3 * t <= Rabs a \/ 3 * t <= Rabs b) by (destruct SL as [(_ & H & _)|(_ & _ & H & _)]; rewrite T4 in H; [left; apply (HF a A H Ea)|right; apply (HF b B H Eb)]).
    assert (S : 3 * t * (3 * t) <= a * a + b * b) by (destruct Q as [Q|Q]; [assert (3 * t * (3 * t) <= Rabs a * Rabs a) by (apply Rmult_le_compat; lra)|assert (3 * t * (3 * t) <= Rabs b * Rabs b) by (apply Rmult_le_compat; lra)]; rewrite <- Rabs_mult, Rabs_pos_eq in H by apply sq_pos; [pose proof (sq_pos b)|pose proof (sq_pos a)]; lra).
    split; [rewrite <- (sqrt_square (3 * t)) by lra; now apply sqrt_le_1_alt|]. assert (0 < 3 * t * (3 * t)) by (apply Rmult_lt_0_compat; lra). lra. }
  destruct FARL as [FARL PS]. assert (MD' := line_dist_min a b c (fpt (c_center ci)) PS). set (d' := Rabs _) in MD'.
  assert (M00 : 0 <= m) by apply bpow_ge_0. assert (K10 : 0 <= bpow radix2 (2 * k + 5 * p - 39)) by apply bpow_ge_0.
  assert (MAIN : exists w, 4 <= w /\ (1 / 999999 + m <= w * (r * r - d' * d') -> two_hits (bpow radix2 (2 * k + 5 * p - 39) / sqrt (w * (r * r - d' * d')) + bpow radix2 (k + 4 * p - 43)) (fpt (c_center ci)) r (fline l) res) /\
     (w * (r * r - d' * d') + m <= - (1 / 999999) -> res = Ok [])).
  { destruct SL as [(S1 & S2 & S3 & S4)|(S0 & S1 & S2 & S3)]; rewrite T4 in S2.
    - destruct (HF a A S2 Ea) as [H3 H2]. exists (4 * (1 + b / a * (b / a))). split; [pose proof (sq_pos (b / a)); lra|].
      assert (P2 : 1 <= bpow radix2 (p - 2)) by (change 1 with (bpow radix2 0); apply bpow_le; lia).
      assert (AB : Rabs b <= bpow radix2 p * Rabs a).
      { replace (bpow radix2 p) with (4 * bpow radix2 (p - 2)) by (change 4 with (bpow radix2 2); rewrite <- bpow_plus; f_equal; lia). assert (Q := UP b B t Eb). assert (bpow radix2 (p - 2) * Rabs A <= bpow radix2 (p - 2) * (2 * Rabs a)) by (apply Rmult_le_compat_l; lra). assert (1 * Rabs a <= bpow radix2 (p - 2) * Rabs a) by (apply Rmult_le_compat_r; lra). lra. }
      assert (AC : Rabs c <= bpow radix2 (k + p + 1) * Rabs a).
      { replace (bpow radix2 (k + p + 1)) with (4 * bpow radix2 (k + p - 1)) by (change 4 with (bpow radix2 2); rewrite <- bpow_plus; f_equal; lia). assert (Q := UP c C _ Ec). rewrite TK in Q.
        assert (bpow radix2 k <= bpow radix2 (k + p - 1)) by (apply bpow_le; lia). assert (bpow radix2 (k + p - 1) * Rabs A <= bpow radix2 (k + p - 1) * (2 * Rabs a)) by (apply Rmult_le_compat_l; lra).
        assert (bpow radix2 k * (3 * t) <= bpow radix2 (k + p - 1) * Rabs a) by (apply Rmult_le_compat; lra). lra. }
      assert (AL : 1 / 999999 <= Rabs a) by lra. assert (AU : Rabs a <= bpow radix2 200) by (eapply Rle_trans; [exact Ba|apply bpow_le; lia]).
      destruct (C152_line_F L (k + p + 1) p ci l d' PA ltac:(lia) ltac:(lia) (W' (k + p + 1)%Z ltac:(lia)) (FR' (k + p + 1)%Z ltac:(lia)) R0 (conj Fa (conj Fb Fc)) (conj AL AU) AB AC MD') as (G1 & G2 & _).
      cbv zeta in G1, G2. fold a b r res in G1, G2. replace (2 * (k + p + 1) + 2 * p - 42)%Z with (2 * k + 4 * p - 40)%Z in G1, G2 by lia. fold m in G1, G2.
      replace (2 * (k + p + 1) + 3 * p - 41)%Z with (2 * k + 5 * p - 39)%Z in G1 by lia. replace (k + p + 1 + 3 * p - 44)%Z with (k + 4 * p - 43)%Z in G1 by lia. split; [exact G1|]. intros H. now apply G2.
    - destruct (HF b B S2 Eb) as [H3 H2]. exists 4. split; [lra|].
      assert (AC : Rabs c <= bpow radix2 (k + 3) * Rabs b).
      { replace (bpow radix2 (k + 3)) with (8 * bpow radix2 k) by (change 8 with (bpow radix2 3); rewrite <- bpow_plus; f_equal; lia). assert (Q := UP c C _ Ec). rewrite TK in Q. rewrite (Z.add_comm k 1), bp2 in S3.
        assert (bpow radix2 k * (3 * t) <= bpow radix2 k * Rabs b) by (apply Rmult_le_compat; lra). assert (2 * bpow radix2 k * Rabs B <= 2 * bpow radix2 k * (2 * Rabs b)) by (apply Rmult_le_compat_l; lra). lra. }
      assert (BL : 1 / 999999 <= Rabs b) by lra. destruct (C152_level_F L (k + 3) ci l d' PA ltac:(lia) (W' (k + 3)%Z ltac:(lia)) (FR' (k + 3)%Z ltac:(lia)) R0 (conj Fa (conj Fb Fc)) S0 BL AC MD') as (G1 & G2 & _).
      cbv zeta in G1, G2. fold a b r res in G1, G2. assert (ML : bpow radix2 (2 * (k + 3) - 42) <= m) by (apply bpow_le; lia).
      assert (RW : 4 * (r * r - d' * d') = 4 * (r * r - d' * d')) by reflexivity. split; [|intros H; apply G2; lra].
      intros H. destruct (G1 ltac:(lra)) as (P & Q & NE & IFF & v & w & V1 & V2 & RS). assert (PD : 0 < sqrt (4 * (r * r - d' * d'))) by (apply sqrt_lt_R0; lra).
      assert (LE : bpow radix2 (2 * (k + 3) - 41) / sqrt (4 * (r * r - d' * d')) + bpow radix2 (k + 3 - 45) <= bpow radix2 (2 * k + 5 * p - 39) / sqrt (4 * (r * r - d' * d')) + bpow radix2 (k + 4 * p - 43)).
      { apply Rplus_le_compat; [|apply bpow_le; lia]. apply Rmult_le_compat_r; [left; apply Rinv_0_lt_compat; exact PD|]. apply bpow_le. lia. }
      exists P, Q. split; [exact NE|]. split; [exact IFF|]. exists v, w. split; [eapply near_le; eassumption|]. split; [eapply near_le; eassumption|exact RS]. }
  destruct MAIN as (w & W4 & HX & HN). split.
  - intros h H0 HH S1 S2. exact (hits_two g i k ci l A B C N d d' w m _ _ res (conj (Z.le_trans (-90) (-60) _ ltac:(lia) (proj1 Hk)) (Z.le_trans _ 60 90 (proj2 Hk) ltac:(lia))) WC FR R0 LC N0 NN FARL MD MD' W4 K10 M00 HX h H0 HH S1 S2).
  - intros mu. exact (hits_none g i k ci l A B C N d d' w m res (conj (Z.le_trans (-90) (-60) _ ltac:(lia) (proj1 Hk)) (Z.le_trans _ 60 90 (proj2 Hk) ltac:(lia))) WC FR R0 LC N0 NN FARL MD MD' W4 HN mu).
Qed.

(** ** Segments *)
(** the points the circle code returns are valid vectors *)
Lemma merge_valid L (v w : vec F) : v_valid v = true -> v_valid w = true -> Forall (fun x => v_valid x = true) (@merge_weakly F (NumF L) v w).
Proof. intros H1 H2. unfold merge_weakly. destruct (Vector2D_equals_weakly v w); repeat constructor; assumption. Qed.
Lemma line_valid L c l vs : @Circle2D_intersection F (NumF L) c (VLine l) = Ok vs -> Forall (fun v => v_valid v = true) vs.
Proof.
  cbn [Circle2D_intersection]. unfold Circle2D_intersection_line. intros H.
  repeat match type of H with
    | bind ?x _ = Ok _ => destruct x as [?|]; cbn [bind] in H; [|discriminate]
    | (if ?x then _ else _) = Ok _ => destruct x
    | (match ?x with Some _ => _ | None => _ end) = Ok _ => destruct x as [[? ?]|]
    | Ok [] = Ok _ => injection H as <-; constructor
    | Ok (merge_weakly _ _) = Ok _ => injection H as <-; apply merge_valid; reflexivity
    end.
Qed.
Lemma circle_reach k (c : circle F) P : within k (c_center c) -> fbound k (c_radius c) -> 0 <= B2R (c_radius c) -> edist (fpt (c_center c)) P = B2R (c_radius c) -> Rabs (px P) <= bpow radix2 (k + 1) /\ Rabs (py P) <= bpow radix2 (k + 1).
Proof.
  intros (_ & _ & X & Y) [_ Fr] R0 K. unfold fpt in K. apply edist_sq in K; [|exact R0]. rewrite Rabs_pos_eq in Fr by exact R0. rewrite (Z.add_comm k 1), bp2. split.
  - apply (near_center (px P) (B2R (vx (c_center c))) (B2R (c_radius c)) _ (py P - B2R (vy (c_center c)))); [split; assumption|exact X|exact K].
  - apply (near_center (py P) (B2R (vy (c_center c))) (B2R (c_radius c)) _ (px P - B2R (vx (c_center c)))); [split; assumption|exact Y|lra].
Qed.
(** filtering two found points by Segment2D.contains *)
Lemma kept_reported L k m (s : seg F) v w P Q K : (-200 <= k <= 200)%Z -> m <= / 32768 -> within k (s_origin s) -> within k (s_terminal s) -> hit_at k m v P -> hit_at k m w Q ->
  kept m (fpt (s_origin s)) (fpt (s_terminal s)) [P; Q] K ->
  (reported m (Ok (List.filter (@Segment2D_contains F (NumF L) s) [v; w])) K) /\ (weakly_near v w -> reported m (Ok (List.filter (@Segment2D_contains F (NumF L) s) [v])) K).
Proof.
  intros Hk Hm W3 W4 A1 A3 KK. assert (PM : 0 <= m <= / 32768) by (destruct A1 as [(_ & _ & _ & X & _) _]; pose proof (Rabs_pos (B2R (vx v) - px P)); split; lra). cbn [List.filter].
  inversion KK as [|q' qs' K' I1 I2 KK' Q1 Q2|q' qs' K' I1 KK' Q1 Q2]; subst; inversion KK' as [|q' qs' K'' J1 J2 KK'' Q1 Q2|q' qs' K'' J1 KK'' Q1 Q2]; subst; inversion KK''; subst.
  - rewrite (hit_in L k m s v P Hk PM W3 W4 A1), (hit_in L k m s w Q Hk PM W3 W4 A3) by assumption. split; [|intros WN]; exists [v; w]; (split; [repeat (constructor; [first [apply A1|apply A3]|]); constructor|]); [left; reflexivity|right; exists v, w; repeat split; apply WN].
  - rewrite (hit_in L k m s v P Hk PM W3 W4 A1), (hit_out L k m s w Q Hk W3 W4 A3) by assumption. split; [|intros WN]; exists [v]; (split; [constructor; [apply A1|constructor]|left; reflexivity]).
  - rewrite (hit_out L k m s v P Hk W3 W4 A1), (hit_in L k m s w Q Hk PM W3 W4 A3) by assumption. split; [exists [w]; split; [constructor; [apply A3|constructor]|left; reflexivity]|]. intros WN. exfalso. eapply (in_out_apart k m s v w P Q PM); eassumption.
  - rewrite (hit_out L k m s v P Hk W3 W4 A1), (hit_out L k m s w Q Hk W3 W4 A3) by assumption. split; [|intros WN]; exists []; (split; [constructor|left; reflexivity]).
Qed.
(** Circle2D.intersection with a segment, in doubles.  [d] is the distance of the center
    from the line through the end points, [h] half the length of the chord; the
    segment is not nearly horizontal (p bounds its slope) or exactly horizontal. *)
Theorem C174_segment_F : forall (L : libm) (k p : Z) (m : R) (c : circle F) (s : seg F) (d : R), pow_accurate L -> (2 <= p <= 20)%Z -> (-60 <= k <= 60)%Z ->
  within k (c_center c) -> fbound k (c_radius c) -> 0 <= B2R (c_radius c) -> within k (s_origin s) -> within k (s_terminal s) ->
  let a := fpt (s_origin s) in let b := fpt (s_terminal s) in let dx := Rabs (px b - px a) in let dy := Rabs (py b - py a) in
  (2 / 999999 <= dy /\ bpow radix2 (k - 46) <= dy /\ dx <= bpow radix2 (p - 2) * dy) \/ (dy = 0 /\ 2 / 999999 <= dx /\ bpow radix2 (k - 46) <= dx) ->
  is_min_dist (on_line2 a b) (fpt (c_center c)) d ->
  let r := B2R (c_radius c) in let dl := bpow radix2 (2 * k - 44) / edist a b in let res := @Circle2D_intersection F (NumF L) c (VSeg s) in
  (forall h, 0 < h -> d * d + h * h = r * r -> 8 * dl * (r + dl) <= h * h -> 1 / 999999 + bpow radix2 (2 * k + 4 * p - 40) <= 2 * (h * h) ->
     cross_err k p r h dl <= m -> m <= / 32768 -> m <= bpow radix2 (k + 1) ->
     exists P Q, P <> Q /\ (forall x, on_line2 a b x /\ edist (fpt (c_center c)) x = r <-> x = P \/ x = Q) /\ forall K, kept m a b [P; Q] K -> reported m res K) /\
  (forall mu, 2 * dl <= mu <= bpow radix2 (k + 1) -> r + mu <= d -> 1 / 999999 + bpow radix2 (2 * k + 4 * p - 40) <= mu * (4 * r + mu) -> res = Ok []).
Proof.
  intros L k p m c s d PA Hp Hk WC FR R0 WA WB a b dx dy SH MD r dl res.
  assert (LC := lclose2_of _ _ _ _ _ (lclose_points L k (s_origin s) (s_terminal s) ltac:(lia) WA WB)). fold a b in LC. set (l := @Line2D_of_points F (NumF L) (s_origin s) (s_terminal s)) in LC.
  assert (NE : a <> b). { intros E. unfold dx, dy in SH. rewrite E, !Rminus_eq_0, Rabs_R0 in SH. lra. }
  set (A := - (py b - py a)) in LC. set (B := px b - px a) in LC. set (C := (py b - py a) * px a - (px b - px a) * py a) in LC.
  assert (LN : forall x, on_line A B C x <-> on_line2 a b x) by (intros x; apply line2_coef; exact NE).
  assert (MD' : is_min_dist (on_line A B C) (fpt (c_center c)) d) by (destruct MD as [(q & Q1 & Q2) Q3]; split; [exists q; split; [now apply LN|exact Q2]|intros q' Q'; apply Q3; now apply LN]).
  set (N := edist a b). assert (NN : N * N = A * A + B * B).
  { unfold N, edist. rewrite norm_sq. unfold norm2, psub, A, B, px, py. cbn [fst snd]. ring. }
  assert (N0 : 0 < N). { assert (0 <= N) by apply edist_nonneg. destruct H as [H|H]; [exact H|exfalso]. rewrite <- H, Rmult_0_l in NN. pose proof (sq_pos A). pose proof (sq_pos B). assert (A * A = 0) by lra. assert (B * B = 0) by lra. apply Rmult_integral in H2, H3. apply NE. destruct a as [ax ay], b as [bx by_]. unfold A, B, px, py in *. cbn [fst snd] in *. f_equal; lra. }
  assert (DA : Rabs A = dy) by (unfold A, dy; apply Rabs_Ropp). assert (DB : Rabs B = dx) by reflexivity. destruct WA as (FA1 & FA2 & BA1 & BA2). destruct WB as (FB1 & FB2 & BB1 & BB2). pose proof (bpow_gt_0 radix2 k) as KP.
  assert (CB : Rabs C <= bpow radix2 k * dy + bpow radix2 k * dx).
  { unfold C. eapply Rle_trans; [apply Rabs_triang|]. rewrite Rabs_Ropp, !Rabs_mult. fold dx dy. unfold a, fpt, px, py. cbn [fst snd]. rewrite (Rmult_comm dy), (Rmult_comm dx). apply Rplus_le_compat; apply Rmult_le_compat_r; try apply Rabs_pos; assumption. }
  assert (SL : steep 48 k k p A B C \/ level 48 k k A B C l).
  { replace (k - 46)%Z with (k - 48 + 2)%Z in SH by lia. destruct SH as [(S1 & S2 & S3)|(S1 & S2 & S3)]; [left|right].
    - unfold steep. rewrite DA, DB. repeat split; try assumption. assert (P1 : 1 <= bpow radix2 (p - 2)) by (change 1 with (bpow radix2 0); apply bpow_le; lia).
      replace (bpow radix2 (k + p - 1)) with (2 * (bpow radix2 k * bpow radix2 (p - 2))) by (rewrite <- bpow_plus, <- bp2; f_equal; lia).
      assert (bpow radix2 k * dx <= bpow radix2 k * (bpow radix2 (p - 2) * dy)) by (apply Rmult_le_compat_l; lra). assert (bpow radix2 k * dy * 1 <= bpow radix2 k * dy * bpow radix2 (p - 2)) by (apply Rmult_le_compat_l; [apply Rmult_le_pos; [lra|apply Rabs_pos]|exact P1]). lra.
    - unfold level. rewrite DB. split; [|split; [exact S2|split; [exact S3|]]].
      + unfold l, Line2D_of_points. cbn [l_a nneg nsub NumF]. rewrite B2R_Bopp. assert (E : B2R (vy (s_terminal s)) - B2R (vy (s_origin s)) = 0) by (destruct (Req_dec (py b - py a) 0) as [Z|Z]; [exact Z|apply Rabs_pos_lt in Z; fold dy in Z; lra]).
        destruct (F_sub (vy (s_terminal s)) (vy (s_origin s)) FB2 FA2) as [G1 _]; [rewrite E; unfold rnd64; rewrite round_0 by apply valid_rnd_N; rewrite Rabs_R0; apply bpow_gt_0|]. rewrite G1, E. unfold rnd64. rewrite round_0 by apply valid_rnd_N. ring.
      + rewrite (Z.add_comm k 1), bp2. rewrite S1, Rmult_0_r in CB. assert (0 <= bpow radix2 k * dx) by (apply Rmult_le_pos; [lra|apply Rabs_pos]). lra. }
  destruct (line_hits L 48 k k p c l A B C N d PA ltac:(lia) ltac:(lia) ltac:(lia) ltac:(lia) WC FR R0 LC SL N0 NN MD') as [G1 G2]. cbv zeta in G1, G2. replace (k + k - 48 + 4)%Z with (2 * k - 44)%Z in G1, G2 by lia. fold dl r in G1, G2.
  assert (SG : forall us, @Circle2D_intersection F (NumF L) c (VLine l) = Ok us -> res = Ok (List.filter (@Segment2D_contains F (NumF L) s) us)) by (intros us; apply (C52_intersection_seg c s us)).
  split.
  - intros h H0 HH S1 S2 E1 E2 E3. destruct (G1 h H0 HH S1 S2) as (P & Q & PQ & IFF & v & w & V1 & V2 & RS).
    apply (near_le _ _ _ _ E1) in V1. apply (near_le _ _ _ _ E1) in V2.
    assert (HIT : forall x X, X = P \/ X = Q -> coords_near m x X -> v_valid x = true -> hit_at (k + 1) m x X).
    { intros x X O (X1 & X2 & X3 & X4) VX. apply IFF in O. destruct O as [_ O]. destruct (circle_reach k c X WC FR R0 O) as [Y1 Y2]. split; [split; [exact VX|repeat split; assumption]|].
      replace (bpow radix2 (k + 1)) with (bpow radix2 (k + 1) + 0) in Y1, Y2 by ring. assert (K2 : bpow radix2 (k + 1 + 1) = 2 * bpow radix2 (k + 1)) by (rewrite (Z.add_comm (k + 1) 1); apply bp2). apply Rabs_le_inv in X3, X4, Y1, Y2. repeat split; try assumption; rewrite K2; apply Rabs_le; lra. }
    exists P, Q. split; [exact PQ|]. split; [intros x; rewrite <- LN; apply IFF|]. intros K KK.
    assert (WA' : within (k + 1) (s_origin s)) by (apply (within_up k); [lia|repeat split; assumption]). assert (WB' : within (k + 1) (s_terminal s)) by (apply (within_up k); [lia|repeat split; assumption]).
    destruct RS as [RS|[RS WN]].
    + assert (VV := line_valid L c l _ RS). inversion VV as [|? ? Z1 VV']. inversion VV' as [|? ? Z2 _]. subst. rewrite (SG _ RS). apply (proj1 (kept_reported L (k + 1) m s v w P Q K ltac:(lia) E2 WA' WB' (HIT v P ltac:(now left) V1 Z1) (HIT w Q ltac:(now right) V2 Z2) KK)).
    + assert (VV := line_valid L c l _ RS). inversion VV as [|? ? Z1 _]. subst. rewrite (SG _ RS).
      (* the second point, with its flag set *)
      assert (V2' : coords_near m (mkVec (vx w) (vy w) true) Q) by exact V2.
      apply (proj2 (kept_reported L (k + 1) m s v (mkVec (vx w) (vy w) true) P Q K ltac:(lia) E2 WA' WB' (HIT v P ltac:(now left) V1 Z1) (HIT _ Q ltac:(now right) V2' eq_refl) KK)). exact WN.
  - intros mu M1 M2 M3. rewrite (SG _ (G2 mu M1 M2 M3)). reflexivity.
Qed.

(** ** Circles *)
Lemma rnd_zero : rnd64 0 = 0.
Proof. apply rnd_id, generic_format_0. Qed.
Lemma abs_of_sq z b : 0 <= b -> z * z <= b * b -> Rabs z <= b.
Proof. intros H K. apply Rsqr_le_abs_0 in K. now rewrite (Rabs_pos_eq b) in K. Qed.
(** the distance of the centers *)
Lemma center_dist_F L k (c o : vec F) : (-60 <= k <= 60)%Z -> within k c -> within k o ->
  exists cd, @Vector2D_r F (NumF L) (V (Bminus mode_NE (vx o) (vx c)) (Bminus mode_NE (vy o) (vy c))) = Ok cd /\ is_finite cd = true /\ Rabs (B2R cd - edist (fpt c) (fpt o)) <= bpow radix2 (k - 49).
Proof.
  intros Hk WC WO. set (D := edist (fpt c) (fpt o)).
  assert (DB : D <= 4 * bpow radix2 k) by (apply edist_box; first [apply WC|apply WO]).
  destruct WC as (C1 & C2 & C3 & C4). destruct WO as (O1 & O2 & O3 & O4). pose proof (bpow_gt_0 radix2 k) as KP.
  assert (X := close_sub k 0 _ 0 _ _ _ ltac:(lia) (close_exact k _ O1 O3) (close_exact k _ C1 C3)). assert (Y := close_sub k 0 _ 0 _ _ _ ltac:(lia) (close_exact k _ O2 O4) (close_exact k _ C2 C4)).
  set (rx := Bminus mode_NE (vx o) (vx c)) in *. set (ry := Bminus mode_NE (vy o) (vy c)) in *. destruct X as (X1 & X2 & X3), Y as (Y1 & Y2 & Y3). rewrite Rplus_0_l, Rplus_0_l in X3, Y3.
  replace (bpow radix2 (k + 1 - 54)) with (2 * bpow radix2 (k - 54)) in X3, Y3 by (rewrite <- bp2; f_equal; lia). replace (bpow radix2 (k - 49)) with (32 * bpow radix2 (k - 54)) by (change 32 with (bpow radix2 5); rewrite <- bpow_plus; f_equal; lia).
  assert (K54 : bpow radix2 (k - 54) = bpow radix2 k * bpow radix2 (-54)) by (rewrite <- bpow_plus; f_equal; lia). pose proof (bpow_gt_0 radix2 (k - 54)) as Q0.
  set (N := norm (B2R rx, B2R ry)).
  assert (ND : Rabs (N - D) <= 3 * bpow radix2 (k - 54)).
  { unfold D. rewrite edist_sym. assert (E1 : edist (B2R rx, B2R ry) (psub (fpt o) (fpt c)) <= 3 / 2 * (2 * bpow radix2 (k - 54))) by (apply edist_coord; unfold psub, fpt, px, py; cbn [fst snd]; assumption).
    assert (E2 : edist (B2R rx, B2R ry) (0, 0) = N) by (unfold edist, N; f_equal; unfold psub, px, py; cbn [fst snd]; now rewrite !Rminus_0_r). assert (E3 : edist (psub (fpt o) (fpt c)) (0, 0) = edist (fpt o) (fpt c)) by (unfold edist; f_equal; unfold psub, px, py; cbn [fst snd]; now rewrite !Rminus_0_r).
    rewrite <- E2, <- E3. pose proof (edist_triangle (B2R rx, B2R ry) (psub (fpt o) (fpt c)) (0, 0)). pose proof (edist_triangle (psub (fpt o) (fpt c)) (B2R rx, B2R ry) (0, 0)). rewrite (edist_sym (psub (fpt o) (fpt c)) (B2R rx, B2R ry)) in H0. apply Rabs_le. lra. }
  apply Rabs_le_inv in ND. destruct (Rle_or_lt (bpow radix2 (-400)) N) as [B|B].
  - destruct (C135_length_F L (V rx ry) X1 Y1) as (_ & _ & cd & G1 & G2 & G3).
    { change (norm (pt (rvec (V rx ry)))) with N. split; [eapply Rle_trans; [|exact B]; apply bpow_le; lia|]. apply Rle_trans with (bpow radix2 (3 + k)); [|apply bpow_le; lia]. rewrite bpow_plus. change (bpow radix2 3) with 8. assert (bpow radix2 (k - 54) <= bpow radix2 k) by (apply bpow_le; lia). lra. }
    change (norm (pt (rvec (V rx ry)))) with N in G3. exists cd. split; [exact G1|]. split; [exact G2|].
    assert (N5 : 5 * bpow radix2 (-54) * N <= 21 * bpow radix2 (k - 54)). { rewrite K54. assert (bpow radix2 (k - 54) <= / 16 * bpow radix2 k) by (change (/ 16) with (bpow radix2 (-4)); rewrite <- bpow_plus; apply bpow_le; lia). assert (0 < bpow radix2 (-54)) by apply bpow_gt_0. assert (N * bpow radix2 (-54) <= 21 / 5 * bpow radix2 k * bpow radix2 (-54)) by (apply Rmult_le_compat_r; lra). lra. }
    apply Rabs_le_inv in G3. apply Rabs_le. lra.
  - (* nearly equal centers *)
    assert (SM : forall z w, norm (z, w) = N -> Rabs z <= bpow radix2 (-400) /\ Rabs w <= bpow radix2 (-400)).
    { intros z w E. rewrite <- E in B. assert (S := norm_sq (z, w)). unfold norm2, px, py in S. cbn [fst snd] in S. assert (Z0 := norm_nonneg (z, w)). pose proof (bpow_gt_0 radix2 (-400)). assert (BB : norm (z, w) * norm (z, w) <= bpow radix2 (-400) * bpow radix2 (-400)) by (apply Rmult_le_compat; lra). pose proof (sq_pos z). pose proof (sq_pos w). split; (apply abs_of_sq; lra). }
    destruct (SM _ _ eq_refl) as [SX SY].
    assert (M1 := close_mul (-400) (-400) 0 _ 0 _ _ _ ltac:(lia) SX (close_exact _ _ X1 SX) (close_exact _ _ X1 SX)). assert (M2 := close_mul (-400) (-400) 0 _ 0 _ _ _ ltac:(lia) SY (close_exact _ _ Y1 SY) (close_exact _ _ Y1 SY)).
    assert (M3 := close_add (-400 + -400) _ _ _ _ _ _ ltac:(lia) M1 M2). destruct M3 as (G1 & G2 & _).
    assert (PZ : 0 <= B2R (Bplus mode_NE (Bmult mode_NE rx rx) (Bmult mode_NE ry ry))).
    { assert (SQ : forall z : F, is_finite z = true -> Rabs (B2R z) <= bpow radix2 (-400) -> is_finite (Bmult mode_NE z z) = true /\ 0 <= B2R (Bmult mode_NE z z) <= bpow radix2 (-800)).
      { intros z Fz Bz. assert (Hz : 0 <= B2R z * B2R z) by apply sq_pos. assert (Hz' : B2R z * B2R z <= bpow radix2 (-800)) by (change (-800)%Z with (-400 + -400)%Z; rewrite bpow_plus; apply Rabs_le_inv in Bz; pose proof (bpow_gt_0 radix2 (-400)); nra).
        assert (R1 : 0 <= rnd64 (B2R z * B2R z)) by (rewrite <- rnd_zero; now apply rnd_le). assert (R2 : rnd64 (B2R z * B2R z) <= bpow radix2 (-800)) by (rewrite <- (rnd_id (bpow radix2 (-800))); [now apply rnd_le|apply fmt_bpow; lia]).
        destruct (F_mul z z Fz Fz) as [E1 E2]; [rewrite Rabs_pos_eq by exact R1; eapply Rle_lt_trans; [exact R2|apply bpow_lt; lia]|]. split; [exact E2|]. rewrite E1. lra. }
      destruct (SQ rx X1 SX) as [A1 A2], (SQ ry Y1 SY) as [B1 B2].
      assert (R1 : 0 <= rnd64 (B2R (Bmult mode_NE rx rx) + B2R (Bmult mode_NE ry ry))) by (rewrite <- rnd_zero; apply rnd_le; lra).
      assert (R2 : rnd64 (B2R (Bmult mode_NE rx rx) + B2R (Bmult mode_NE ry ry)) <= bpow radix2 (-799)) by (rewrite <- (rnd_id (bpow radix2 (-799))); [apply rnd_le; change (-799)%Z with (1 + -800)%Z; rewrite bp2; lra|apply fmt_bpow; lia]).
      destruct (F_add _ _ A1 B1) as [E1 E2]; [rewrite Rabs_pos_eq by exact R1; eapply Rle_lt_trans; [exact R2|apply bpow_lt; lia]|]. rewrite E1. exact R1. }
    destruct (F_root L _ G1 PZ) as (cd & H1 & H2 & H3). exists cd. split; [exact H1|]. split; [exact H2|]. rewrite H3.
    assert (S1 : sqrt (B2R (Bplus mode_NE (Bmult mode_NE rx rx) (Bmult mode_NE ry ry))) <= bpow radix2 (-399)).
    { rewrite <- (sqrt_square (bpow radix2 (-399))) by apply bpow_ge_0. apply sqrt_le_1_alt. rewrite Rabs_pos_eq in G2 by exact PZ. eapply Rle_trans; [exact G2|]. rewrite <- bpow_plus. apply bpow_le. lia. }
    assert (S2 : 0 <= rnd64 (sqrt (B2R (Bplus mode_NE (Bmult mode_NE rx rx) (Bmult mode_NE ry ry))))) by (rewrite <- rnd_zero; apply rnd_le, sqrt_pos).
    assert (S3 : rnd64 (sqrt (B2R (Bplus mode_NE (Bmult mode_NE rx rx) (Bmult mode_NE ry ry)))) <= bpow radix2 (-399)) by (rewrite <- (rnd_id (bpow radix2 (-399))); [now apply rnd_le|apply fmt_bpow; lia]).
    assert (T1 : bpow radix2 (-399) <= bpow radix2 (k - 54)) by (apply bpow_le; lia). assert (T2 : bpow radix2 (-400) <= bpow radix2 (k - 54)) by (apply bpow_le; lia). assert (N0 : 0 <= N) by apply norm_nonneg. apply Rabs_le. lra.
Qed.
(** the line through the common points, as computed *)
Definition radical (L : libm) (c o : circle F) : line F :=
  @mkLine F (@nmul F (NumF L) (@nlit F (NumF L) (-2) 1) (Bminus mode_NE (vx (c_center o)) (vx (c_center c)))) (@nmul F (NumF L) (@nlit F (NumF L) (-2) 1) (Bminus mode_NE (vy (c_center o)) (vy (c_center c))))
    (@nadd F (NumF L) (@nsub F (NumF L) (@nsub F (NumF L) (@Vector2D_r2 F (NumF L) (c_center o)) (@nmul F (NumF L) (c_radius o) (c_radius o))) (@Vector2D_r2 F (NumF L) (c_center c))) (@nmul F (NumF L) (c_radius c) (c_radius c))).
Lemma minus_two L : close 1 0 (-2) (@nlit F (NumF L) (-2) 1).
Proof. destruct (F_of_Z_exact (-2) eq_refl) as [E1 E2]. change (@nlit F (NumF L) (-2) 1) with (F_of_Z (-2)). split; [exact E2|]. rewrite E1. change (bpow radix2 1) with 2. split; [rewrite Rabs_left; lra|rewrite Rminus_eq_0, Rabs_R0; lra]. Qed.
Lemma r2_close L k v : (-100 <= k <= 100)%Z -> within k v -> close (2 * k + 1) (4 * bpow radix2 (2 * k - 54)) (px (fpt v) * px (fpt v) + py (fpt v) * py (fpt v)) (@Vector2D_r2 F (NumF L) v).
Proof.
  intros Hk (C1 & C2 & C3 & C4). unfold Vector2D_r2. cbn [nadd nmul NumF].
  assert (M1 := close_mul k k 0 _ 0 _ _ _ ltac:(lia) C3 (close_exact _ _ C1 C3) (close_exact _ _ C1 C3)). assert (M2 := close_mul k k 0 _ 0 _ _ _ ltac:(lia) C4 (close_exact _ _ C2 C4) (close_exact _ _ C2 C4)).
  assert (M3 := close_add (k + k) _ _ _ _ _ _ ltac:(lia) M1 M2). replace (k + k + 1)%Z with (2 * k + 1)%Z in M3 by lia. eapply close_weaken; [|exact M3]. replace (k + k - 54)%Z with (2 * k - 54)%Z by lia. replace (2 * k + 1 - 54)%Z with (1 + (2 * k - 54))%Z by lia. rewrite bp2. lra.
Qed.
Lemma radical_close L k c o : (-60 <= k <= 60)%Z -> within k (c_center c) -> fbound k (c_radius c) -> within k (c_center o) -> fbound k (c_radius o) ->
  let p := fpt (c_center c) in let q := fpt (c_center o) in
  lclose2 48 (k + 1) k (- 2 * (px q - px p)) (- 2 * (py q - py p)) ((px q * px q + py q * py q) - B2R (c_radius o) * B2R (c_radius o) - (px p * px p + py p * py p) + B2R (c_radius c) * B2R (c_radius c)) (radical L c o).
Proof.
  intros Hk WC FC WO FO p q. assert (RC := r2_close L k _ ltac:(lia) WC). assert (RO := r2_close L k _ ltac:(lia) WO). fold p in RC. fold q in RO.
  destruct WC as (C1 & C2 & C3 & C4). destruct WO as (O1 & O2 & O3 & O4). destruct FC as [FC1 FC2], FO as [FO1 FO2].
  assert (X := close_sub k 0 _ 0 _ _ _ ltac:(lia) (close_exact k _ O1 O3) (close_exact k _ C1 C3)). assert (Y := close_sub k 0 _ 0 _ _ _ ltac:(lia) (close_exact k _ O2 O4) (close_exact k _ C2 C4)).
  assert (M2 := minus_two L). assert (A2 : Rabs (-2) <= bpow radix2 1) by (change (bpow radix2 1) with 2; rewrite Rabs_left; lra).
  assert (AX := close_mul 1 (k + 1) 0 (-2) _ _ _ _ ltac:(lia) A2 M2 X). assert (AY := close_mul 1 (k + 1) 0 (-2) _ _ _ _ ltac:(lia) A2 M2 Y).
  assert (SO := close_mul k k 0 _ 0 _ _ _ ltac:(lia) FO2 (close_exact _ _ FO1 FO2) (close_exact _ _ FO1 FO2)). assert (SC := close_mul k k 0 _ 0 _ _ _ ltac:(lia) FC2 (close_exact _ _ FC1 FC2) (close_exact _ _ FC1 FC2)).
  assert (D1 := close_sub (2 * k + 1) _ _ _ _ _ _ ltac:(lia) RO (close_up (k + k) (2 * k + 1) _ _ _ ltac:(lia) SO)). replace (2 * k + 1 + 1)%Z with (2 * k + 2)%Z in D1 by lia.
  assert (D2 := close_sub (2 * k + 2) _ _ _ _ _ _ ltac:(lia) D1 (close_up (2 * k + 1) (2 * k + 2) _ _ _ ltac:(lia) RC)). replace (2 * k + 2 + 1)%Z with (2 * k + 3)%Z in D2 by lia.
  assert (D3 := close_add (2 * k + 3) _ _ _ _ _ _ ltac:(lia) D2 (close_up (k + k) (2 * k + 3) _ _ _ ltac:(lia) SC)).
  set (C := px q * px q + py q * py q - B2R (c_radius o) * B2R (c_radius o) - (px p * px p + py p * py p) + B2R (c_radius c) * B2R (c_radius c)) in *.
  pose proof (bpow_gt_0 radix2 k) as KP. set (z := bpow radix2 (2 * k - 54)) in *. assert (Z0 : 0 < z) by apply bpow_gt_0.
  assert (ZZ : forall j, bpow radix2 (j + 2 * k - 54) = bpow radix2 j * z) by (intros j; unfold z; rewrite <- bpow_plus; f_equal; lia).
  assert (KK : bpow radix2 k * bpow radix2 k = bpow radix2 (2 * k)) by (rewrite <- bpow_plus; f_equal; lia). assert (K2 : bpow radix2 (2 * k + 3) = 8 * bpow radix2 (2 * k)) by (rewrite Z.add_comm, bpow_plus; reflexivity).
  assert (SQ : forall x, Rabs x <= bpow radix2 k -> 0 <= x * x <= bpow radix2 (2 * k)) by (intros x Hx; apply Rabs_le_inv in Hx; rewrite <- KK; split; [apply sq_pos|nra]).
  assert (CB : Rabs C <= 3 * bpow radix2 (2 * k)).
  { pose proof (SQ _ C3). pose proof (SQ _ C4). pose proof (SQ _ O3). pose proof (SQ _ O4). pose proof (SQ _ FO2). pose proof (SQ _ FC2). unfold C, p, q, fpt, px, py. cbn [fst snd]. apply Rabs_le. lra. }
  replace (k + k - 54)%Z with (2 * k - 54)%Z in D3 by lia. fold z in D3. replace (2 * k + 2 - 54)%Z with (2 + 2 * k - 54)%Z in D3 by lia. replace (2 * k + 3 - 54)%Z with (3 + 2 * k - 54)%Z in D3 by lia. replace (2 * k + 3 + 1 - 54)%Z with (4 + 2 * k - 54)%Z in D3 by lia.
  rewrite !ZZ in D3. change (bpow radix2 2) with 4 in D3. change (bpow radix2 3) with 8 in D3. change (bpow radix2 4) with 16 in D3.
  assert (PD : forall x y, Rabs x <= bpow radix2 k -> Rabs y <= bpow radix2 k -> Rabs (-2 * (x - y)) <= bpow radix2 (k + 1 + 1)).
  { intros x y Hx Hy. replace (k + 1 + 1)%Z with (1 + (1 + k))%Z by lia. rewrite !bp2. apply Rabs_le_inv in Hx, Hy. apply Rabs_le. lra. }
  assert (PE : forall x d, close (1 + (k + 1)) (bpow radix2 1 * (0 + 0 + bpow radix2 (k + 1 - 54)) + bpow radix2 (k + 1) * 0 + bpow radix2 (1 + (k + 1) - 54)) d x -> close (k + 1 + 1) (bpow radix2 (k + 1 - 48)) d x).
  { intros x d K. replace (k + 1 + 1)%Z with (1 + (k + 1))%Z by lia. eapply close_weaken; [|exact K]. replace (1 + (k + 1) - 54)%Z with (1 + (k + 1 - 54))%Z by lia. rewrite bp2. replace (k + 1 - 48)%Z with (6 + (k + 1 - 54))%Z by lia. rewrite (bpow_plus radix2 6). change (bpow radix2 6) with 64. change (bpow radix2 1) with 2. pose proof (bpow_gt_0 radix2 (k + 1 - 54)). lra. }
  unfold lclose2, radical. cbn [l_a l_b l_c nmul nadd nsub NumF].
  split; [apply PE; exact AX|]. split; [apply PE; exact AY|]. split; [|split; [apply PD; assumption|split; [apply PD; assumption|replace (k + 1 + k + 2)%Z with (2 * k + 3)%Z by lia; rewrite K2; pose proof (bpow_gt_0 radix2 (2 * k)); lra]]].
  destruct D3 as (E1 & _ & E3). assert (E4 : bpow radix2 (k + 1 + k - 48 + 1) = 256 * z) by (unfold z; change 256 with (bpow radix2 8); rewrite <- bpow_plus; f_equal; lia). rewrite E4.
  assert (E5 : Rabs (B2R (Bplus mode_NE (Bminus mode_NE (Bminus mode_NE (@Vector2D_r2 F (NumF L) (c_center o)) (Bmult mode_NE (c_radius o) (c_radius o))) (@Vector2D_r2 F (NumF L) (c_center c))) (Bmult mode_NE (c_radius c) (c_radius c))) - C) <= 256 * z) by (eapply Rle_trans; [exact E3|lra]).
  split; [exact E1|]. split; [|exact E5]. replace (k + 1 + k + 2)%Z with (2 * k + 3)%Z by lia. rewrite K2.
  assert (ZK : 256 * z <= bpow radix2 (2 * k)) by (unfold z; change 256 with (bpow radix2 8); rewrite <- bpow_plus; apply bpow_le; lia).
  apply Rabs_le_inv in E5, CB. apply Rabs_le. lra.
Qed.
(** the points of the radical line on one circle are the common points *)
Lemma radical_iff (p q x : point) rc ro : 0 <= rc -> 0 <= ro -> edist p x = rc ->
  (on_line (- 2 * (px q - px p)) (- 2 * (py q - py p)) ((px q * px q + py q * py q) - ro * ro - (px p * px p + py p * py p) + rc * rc) x <-> edist q x = ro).
Proof.
  intros H1 H2. destruct p as [p1 p2], q as [q1 q2]. intros E. apply edist_sq in E; [|exact H1]. rewrite edist_sq by exact H2. unfold on_line, px, py in *. cbn [fst snd] in *. split; intros K; lra.
Qed.
(** Circle2D.intersection of two circles, in doubles. [D] is the distance of the centers,
    [d] that of the first center from the line of the common points and [h] half of the common
    chord. The line of the centers is not nearly vertical (p bounds its slope) or exactly
    vertical. *)
Theorem C174_circle_F : forall (L : libm) (k p : Z) (c o : circle F), pow_accurate L -> (3 <= p <= 20)%Z -> (-60 <= k <= 60)%Z ->
  within k (c_center c) -> fbound k (c_radius c) -> 0 <= B2R (c_radius c) -> within k (c_center o) -> fbound k (c_radius o) -> 0 <= B2R (c_radius o) ->
  let a := fpt (c_center c) in let b := fpt (c_center o) in let dx := Rabs (px b - px a) in let dy := Rabs (py b - py a) in
  let r := B2R (c_radius c) in let r' := B2R (c_radius o) in let D := edist a b in let d := (D * D + r * r - r' * r') / (2 * D) in let dl := bpow radix2 (2 * k - 44) / D in
  let res := @Circle2D_intersection F (NumF L) c (VCirc o) in
  (forall h, (1 / 999999 <= dx /\ bpow radix2 (k - 46) <= dx /\ dy <= bpow radix2 (p - 3) * dx) \/ (dx = 0 /\ 1 / 999999 <= dy /\ bpow radix2 (k - 46) <= dy) ->
     Rabs (r - r') + bpow radix2 (k - 48) <= D <= r + r' - bpow radix2 (k - 48) ->
     0 < h -> d * d + h * h = r * r -> 8 * dl * (r + dl) <= h * h -> 1 / 999999 + bpow radix2 (2 * k + 4 * p - 40) <= 2 * (h * h) ->
     two_hits (cross_err k p r h dl) a r (fun x => edist b x = r') res) /\
  (r + r' + bpow radix2 (k - 48) <= D \/ D + bpow radix2 (k - 48) <= Rabs (r - r') -> res = Ok []).
Proof.
  intros L k p c o PA Hp Hk WC FC R0 WO FO R0' a b dx dy r r' D d dl res.
  destruct (center_dist_F L k _ _ Hk WC WO) as (cd & G1 & G2 & G3). fold a b D in G3.
  destruct FC as [FC1 FC2]. destruct FO as [FO1 FO2]. fold r in FC2. fold r' in FO2.
  assert (SB := close_sub k 0 _ 0 _ _ _ ltac:(lia) (close_exact k _ FC1 FC2) (close_exact k _ FO1 FO2)). assert (AD := close_add k 0 _ 0 _ _ _ ltac:(lia) (close_exact k _ FC1 FC2) (close_exact k _ FO1 FO2)).
  fold r r' in SB, AD. destruct SB as (S1 & _ & S3), AD as (T1 & _ & T3). rewrite !Rplus_0_l in S3, T3.
  set (z := bpow radix2 (k - 54)) in *. assert (Z0 : 0 < z) by apply bpow_gt_0. replace (bpow radix2 (k + 1 - 54)) with (2 * z) in S3, T3 by (unfold z; rewrite <- bp2; f_equal; lia). replace (bpow radix2 (k - 49)) with (32 * z) in G3 by (unfold z; change 32 with (bpow radix2 5); rewrite <- bpow_plus; f_equal; lia).
  replace (bpow radix2 (k - 48)) with (64 * z) by (unfold z; change 64 with (bpow radix2 6); rewrite <- bpow_plus; f_equal; lia).
  assert (AB : Rabs (Rabs (B2R (Bminus mode_NE (c_radius c) (c_radius o))) - Rabs (r - r')) <= 2 * z) by (eapply Rle_trans; [apply Rabs_triang_inv2|exact S3]).
  apply Rabs_le_inv in G3, T3, AB.
  assert (RES : res = if (@nltb F (NumF L) cd (@nabs F (NumF L) (Bminus mode_NE (c_radius c) (c_radius o)))) || (@nltb F (NumF L) (Bplus mode_NE (c_radius c) (c_radius o)) cd) then Ok [] else @Circle2D_intersection F (NumF L) c (VLine (radical L c o))).
  { unfold res. cbn [Circle2D_intersection]. unfold Circle2D_intersection_circle. cbv zeta. unfold Vector2D_r, Vector2D_r2 in G1. cbn [nsub nadd nmul NumF vx vy V] in G1 |- *. rewrite G1. reflexivity. }
  assert (FA : is_finite (@nabs F (NumF L) (Bminus mode_NE (c_radius c) (c_radius o))) = true /\ B2R (@nabs F (NumF L) (Bminus mode_NE (c_radius c) (c_radius o))) = Rabs (B2R (Bminus mode_NE (c_radius c) (c_radius o)))) by (cbn [nabs NumF]; rewrite is_finite_Babs, B2R_Babs; split; [exact S1|reflexivity]).
  destruct FA as [FA1 FA2].
  assert (LT1 := ltb_F _ _ G2 FA1). rewrite FA2 in LT1. assert (LT2 := ltb_F _ _ T1 G2). cbn [nltb NumF] in RES. rewrite LT1, LT2 in RES. clear LT1 LT2.
  split.
  - intros h SH GD H0 HH E1 E2. rewrite RES. rewrite Rlt_bool_false by lra. rewrite Rlt_bool_false by lra. cbn [orb].
    assert (LC := radical_close L k c o Hk WC (conj FC1 FC2) WO (conj FO1 FO2)). cbv zeta in LC. fold a b r r' in LC.
    set (A := - 2 * (px b - px a)) in LC. set (B := - 2 * (py b - py a)) in LC. set (C := px b * px b + py b * py b - r' * r' - (px a * px a + py a * py a) + r * r) in LC.
    assert (D0 : 0 < D) by (pose proof (Rabs_pos (r - r')); lra). assert (DD : D * D = (px b - px a) * (px b - px a) + (py b - py a) * (py b - py a)) by (unfold D, edist; rewrite norm_sq; unfold norm2, psub, px, py; cbn [fst snd]; ring).
    assert (NN : (2 * D) * (2 * D) = A * A + B * B) by (unfold A, B; lra). assert (N0 : 0 < 2 * D) by lra.
    assert (DA : Rabs A = 2 * dx) by (unfold A, dx; rewrite Rabs_mult; f_equal; rewrite Rabs_left; lra). assert (DB : Rabs B = 2 * dy) by (unfold B, dy; rewrite Rabs_mult; f_equal; rewrite Rabs_left; lra).
    assert (CE : A * px a + B * py a + C = 2 * D * d). { unfold d. replace (2 * D * ((D * D + r * r - r' * r') / (2 * D))) with (D * D + r * r - r' * r') by (field; lra). rewrite DD. unfold A, B, C. ring. }
    assert (Dr : Rabs d <= r) by (apply abs_of_sq; [exact R0|pose proof (sq_pos h); lra]). assert (RK : r <= bpow radix2 k) by (rewrite Rabs_pos_eq in FC2 by exact R0; exact FC2). pose proof (bpow_gt_0 radix2 k) as KP.
    assert (D1 : D <= dx + dy). { apply Rsqr_incr_0_var; [|unfold dx, dy; pose proof (Rabs_pos (px b - px a)); pose proof (Rabs_pos (py b - py a)); lra]. unfold Rsqr. rewrite DD. unfold dx, dy. pose proof (Rabs_pos (px b - px a)) as U1. pose proof (Rabs_pos (py b - py a)) as U2. assert (V1 := Rsqr_abs (px b - px a)). assert (V2 := Rsqr_abs (py b - py a)). unfold Rsqr in V1, V2. rewrite V1, V2. assert (0 <= Rabs (px b - px a) * Rabs (py b - py a)) by (apply Rmult_le_pos; assumption). lra. }
    assert (P0 : 0 <= dx) by apply Rabs_pos. assert (P0' : 0 <= dy) by apply Rabs_pos.
    assert (CB : Rabs C <= 2 * bpow radix2 k * (2 * dx + 2 * dy)).
    { replace C with (2 * D * d - A * px a - B * py a) by lra. assert (U1 : Rabs (A * px a) <= 2 * dx * bpow radix2 k) by (rewrite Rabs_mult, DA; apply Rmult_le_compat_l; [lra|apply WC]). assert (U2 : Rabs (B * py a) <= 2 * dy * bpow radix2 k) by (rewrite Rabs_mult, DB; apply Rmult_le_compat_l; [lra|apply WC]).
      assert (U3 : Rabs (2 * D * d) <= 2 * (dx + dy) * bpow radix2 k) by (rewrite Rabs_mult, (Rabs_pos_eq (2 * D)) by lra; apply Rmult_le_compat; try apply Rabs_pos; lra). apply Rabs_le_inv in U1, U2, U3. apply Rabs_le. lra. }
    assert (SL : steep 48 (k + 1) k p A B C \/ level 48 (k + 1) k A B C (radical L c o)).
    { replace (bpow radix2 (k - 46)) with (/ 2 * bpow radix2 (k + 1 - 48 + 2)) in SH by (change (/ 2) with (bpow radix2 (-1)); rewrite <- bpow_plus; f_equal; lia). destruct SH as [(U1 & U2 & U3)|(U1 & U2 & U3)]; [left|right].
      - unfold steep. rewrite DA, DB. assert (P1 : 1 <= bpow radix2 (p - 3)) by (change 1 with (bpow radix2 0); apply bpow_le; lia). assert (P2 : bpow radix2 (p - 2) = 2 * bpow radix2 (p - 3)) by (rewrite <- bp2; f_equal; lia).
        assert (P3 : 0 <= bpow radix2 (p - 3) * dx) by (apply Rmult_le_pos; lra).
        split; [lra|]. split; [lra|]. split; [rewrite P2; lra|]. eapply Rle_trans; [exact CB|]. replace (bpow radix2 (k + p - 1)) with (bpow radix2 k * (4 * bpow radix2 (p - 3))) by (change 4 with (bpow radix2 2); rewrite <- !bpow_plus; f_equal; lia).
        assert (Q1 : bpow radix2 k * (dx * 1) <= bpow radix2 k * (dx * bpow radix2 (p - 3))) by (apply Rmult_le_compat_l; [lra|apply Rmult_le_compat_l; lra]). assert (Q2 : bpow radix2 k * dy <= bpow radix2 k * (bpow radix2 (p - 3) * dx)) by (apply Rmult_le_compat_l; lra). lra.
      - unfold level. rewrite DB. split; [|split; [lra|split; [lra|]]].
        + unfold radical. cbn [l_a nmul NumF]. assert (E : B2R (vx (c_center o)) - B2R (vx (c_center c)) = 0) by (destruct (Req_dec (px b - px a) 0) as [Z|Z]; [exact Z|apply Rabs_pos_lt in Z; fold dx in Z; lra]).
          destruct WC as (X1 & _), WO as (Y1 & _). destruct (F_sub _ _ Y1 X1) as [J1 J2]; [rewrite E, rnd_zero, Rabs_R0; apply bpow_gt_0|]. rewrite E, rnd_zero in J1.
          destruct (minus_two L) as (M1 & _). destruct (F_mul _ _ M1 J2) as [J3 _]; [rewrite J1, Rmult_0_r, rnd_zero, Rabs_R0; apply bpow_gt_0|]. rewrite J3, J1, Rmult_0_r. apply rnd_zero.
        + rewrite U1 in CB. rewrite (Z.add_comm k 1), bp2. lra. }
    assert (MD : is_min_dist (on_line A B C) a (Rabs d)).
    { set (f := (px a - A * (2 * D * d) / ((2 * D) * (2 * D)), py a - B * (2 * D * d) / ((2 * D) * (2 * D)))).
      assert (OF : on_line A B C f). { unfold on_line, f, px, py in *. cbn [fst snd] in *. apply Rmult_eq_reg_r with ((2 * D) * (2 * D)); [|apply Rgt_not_eq, Rmult_lt_0_compat; lra]. replace ((A * (fst a - A * (2 * D * d) / (2 * D * (2 * D))) + B * (snd a - B * (2 * D * d) / (2 * D * (2 * D))) + C) * (2 * D * (2 * D))) with ((A * fst a + B * snd a + C) * (2 * D * (2 * D)) - (A * A + B * B) * (2 * D * d)) by (field; lra). rewrite CE, <- NN. ring. }
      split.
      - exists f. split; [exact OF|]. destruct a as [a1 a2] eqn:EA. apply (edist_sq a1 a2 (Rabs d)); [apply Rabs_pos|]. unfold f, px, py. cbn [fst snd].
        transitivity ((A * A + B * B) * (2 * D * d) * (2 * D * d) / ((2 * D) * (2 * D)) / ((2 * D) * (2 * D))); [field; lra|]. rewrite <- NN. transitivity (d * d); [field; lra|apply (Rsqr_abs d)].
      - intros q Q. unfold on_line in Q. apply Rsqr_incr_0_var; [|apply edist_nonneg]. rewrite <- Rsqr_abs. unfold Rsqr, edist. rewrite norm_sq. unfold norm2, psub, px, py in *. cbn [fst snd] in *.
        assert (E : A * (fst a - fst q) + B * (snd a - snd q) = 2 * D * d) by lra.
        assert (CS : (2 * D * d) * (2 * D * d) <= (A * A + B * B) * ((fst a - fst q) * (fst a - fst q) + (snd a - snd q) * (snd a - snd q))) by (rewrite <- E; pose proof (sq_pos (A * (snd a - snd q) - B * (fst a - fst q))); lra).
        rewrite <- NN in CS. apply Rmult_le_reg_l with (2 * D * (2 * D)); [apply Rmult_lt_0_compat; lra|]. lra. }
    destruct (line_hits L 48 (k + 1) k p c (radical L c o) A B C (2 * D) (Rabs d) PA ltac:(lia) ltac:(lia) ltac:(lia) ltac:(lia) WC (conj FC1 FC2) R0 LC SL N0 NN MD) as [K1 _]. cbv zeta in K1.
    replace (bpow radix2 (k + 1 + k - 48 + 4) / (2 * D)) with dl in K1 by (unfold dl; replace (k + 1 + k - 48 + 4)%Z with (1 + (2 * k - 44))%Z by lia; rewrite bp2; field; lra).
    destruct (K1 h H0) as (P & Q & PQ & IFF & W); [rewrite <- Rabs_mult, Rabs_pos_eq by apply sq_pos; exact HH|exact E1|exact E2|]. exists P, Q. split; [exact PQ|]. split; [|exact W].
    intros x. rewrite <- IFF. split; intros [J1 J2]; (split; [|exact J2]); now apply (radical_iff a b x r r' R0 R0' J2).
  - intros GD. rewrite RES. destruct GD as [GD|GD].
    + rewrite (Rlt_bool_true (B2R (Bplus mode_NE (c_radius c) (c_radius o)))) by lra. now rewrite orb_true_r.
    + rewrite Rlt_bool_true by lra. reflexivity.
Qed.

(** ** Rays *)
Lemma thr1 L : is_finite (@nlit F (NumF L) 1 1) = true /\ B2R (@nlit F (NumF L) 1 1) = 1.
Proof. change (@nlit F (NumF L) 1 1) with (F_of_Z 1). destruct (F_of_Z_exact 1 eq_refl) as [A B]. now split. Qed.
(** the test with the one degree of the circle code *)
Lemma ahead1 L r v s m : atan2_accurate L -> is_finite (vx (ray_origin r)) = true -> is_finite (vy (ray_origin r)) = true -> is_finite (vx v) = true -> is_finite (vy v) = true ->
  good_degree (a_degree (ray_dir r)) -> let q := ray_at (fpt (ray_origin r)) (B2R (a_degree (ray_dir r))) s in
  Rabs (px (fpt v) - px q) <= m -> Rabs (py (fpt v) - py q) <= m -> bpow radix2 (-17) <= Rabs s <= bpow radix2 498 -> 256 * m <= Rabs s ->
  (0 < s -> @Ray2D_in_right_dir_thr F (NumF L) r v (@nlit F (NumF L) 1 1) = Ok true) /\ (s < 0 -> @Ray2D_in_right_dir_thr F (NumF L) r v (@nlit F (NumF L) 1 1) = Ok false).
Proof.
  intros AT O1 O2 V1 V2 G q QX QY [S1 S2] M. unfold q, ray_at, fpt, px, py in QX, QY. cbn [fst snd] in QX, QY. set (dg := B2R (a_degree (ray_dir r))) in *.
  set (ox := B2R (vx (ray_origin r))) in *. set (oy := B2R (vy (ray_origin r))) in *. set (c := cos (rad dg)) in *. set (h := sin (rad dg)) in *.
  set (x := B2R (vx v) - ox). set (y := B2R (vy v) - oy).
  assert (EX : Rabs (x - s * c) <= m) by (replace (x - s * c) with (B2R (vx v) - (ox + s * c)) by (unfold x; ring); exact QX).
  assert (EY : Rabs (y - s * h) <= m) by (replace (y - s * h) with (B2R (vy v) - (oy + s * h)) by (unfold y; ring); exact QY).
  assert (M0 : 0 <= m) by (pose proof (Rabs_pos (x - s * c)); lra).
  assert (B18 : bpow radix2 (-17) = 2 * bpow radix2 (-18)) by (change (-17)%Z with (1 + -18)%Z; apply bp2). assert (P18 : 0 < bpow radix2 (-18)) by apply bpow_gt_0.
  assert (B98 : bpow radix2 499 = 2 * bpow radix2 498) by (change 499%Z with (1 + 498)%Z; apply bp2).
  destruct (unit_abs (rad dg)) as [U1 U2]. fold c h in U1, U2. assert (CH : c * c + h * h = 1) by (unfold c, h; pose proof (sin2_cos2 (rad dg)) as K; unfold Rsqr in K; lra).
  assert (NS : norm (s * c, s * h) = Rabs s) by apply norm_polar.
  pose proof (norm_rel x y (s * c) (s * h) 0 m ltac:(lra) M0 ltac:(lra) ltac:(lra)) as NR. rewrite NS in NR. apply Rabs_le_inv in NR.
  set (n := norm (x, y)) in *. assert (N0 : 127 / 128 * Rabs s <= n <= 129 / 128 * Rabs s) by lra.
  destruct (polar_exists x y ltac:(fold n; lra)) as (t & T1 & T2). fold n in T1, T2.
  destruct (between_exists dg t) as [d AB]. destruct (thr1 L) as [F10 E10].
  assert (EN : edist (fpt (ray_origin r)) (fpt v) = n) by (unfold n, edist, norm, norm2, psub, fpt, px, py; cbn [fst snd]; f_equal; unfold x, y, ox, oy; ring).
  destruct (C166_in_right_dir_F L r v (@nlit F (NumF L) 1 1) t d AT O1 O2 V1 V2 F10 G) as (b & E & DEC); try assumption.
  { rewrite EN. lra. }
  { rewrite EN. unfold psub, fpt, px, py. cbn [fst snd]. fold ox oy. fold x y. now rewrite <- T1, <- T2. }
  rewrite E. rewrite E10 in DEC. destruct DEC as [Y N]. assert (P42 : bpow radix2 (-42) <= / 32) by (apply (bpow_le radix2 (-42) (-5)); lia).
  assert (DOT : 0 < (s * c) * x + (s * h) * y).
  { replace ((s * c) * x + (s * h) * y) with (s * s + (s * c * (x - s * c) + s * h * (y - s * h))) by (replace (s * s) with (s * s * (c * c + h * h)) by (rewrite CH; ring); ring).
    assert (Q1 : Rabs (s * c * (x - s * c)) <= Rabs s * m). { rewrite !Rabs_mult. rewrite Rmult_assoc. apply Rmult_le_compat_l; [apply Rabs_pos|]. pose proof (Rmult_le_compat _ _ _ _ (Rabs_pos c) (Rabs_pos (x - s * c)) U1 EX). lra. }
    assert (Q2 : Rabs (s * h * (y - s * h)) <= Rabs s * m). { rewrite !Rabs_mult. rewrite Rmult_assoc. apply Rmult_le_compat_l; [apply Rabs_pos|]. pose proof (Rmult_le_compat _ _ _ _ (Rabs_pos h) (Rabs_pos (y - s * h)) U2 EY). lra. }
    assert (Q3 : Rabs s * (256 * m) <= Rabs s * Rabs s) by (apply Rmult_le_compat_l; lra). assert (Q4 : Rabs s * Rabs s = s * s) by (rewrite <- Rabs_mult; apply Rabs_pos_eq; apply Rle_0_sqr).
    assert (Q5 : 0 < Rabs s * Rabs s) by (apply Rmult_lt_0_compat; lra). apply Rabs_le_inv in Q1, Q2. lra. }
  assert (CR : Rabs ((s * c) * y - (s * h) * x) <= 1 / 125 * (Rabs s * n)).
  { replace ((s * c) * y - (s * h) * x) with (s * (c * (y - s * h) - h * (x - s * c))) by ring. rewrite Rabs_mult.
    replace (1 / 125 * (Rabs s * n)) with (Rabs s * (1 / 125 * n)) by ring. apply Rmult_le_compat_l; [apply Rabs_pos|]. eapply Rle_trans; [apply Rabs_triang|]. rewrite Rabs_Ropp, !Rabs_mult.
    pose proof (Rmult_le_compat _ _ _ _ (Rabs_pos c) (Rabs_pos (y - s * h)) U1 EY). pose proof (Rmult_le_compat _ _ _ _ (Rabs_pos h) (Rabs_pos (x - s * c)) U2 EX). lra. }
  assert (PN : 0 < Rabs s * n) by (apply Rmult_lt_0_compat; lra).
  split; intros SS.
  - destruct (dir_close (s * c) (s * h) x y dg t (1 / 125)) as [k K]; try rewrite NS; try assumption; try lra.
    { now rewrite Rabs_pos_eq by lra. } { now rewrite Rabs_pos_eq by lra. }
    pose proof (between_min _ _ _ k AB) as BM. f_equal. apply Y. lra.
  - assert (PI180 : cos (rad (dg + 180)) = - c /\ sin (rad (dg + 180)) = - h). { replace (rad (dg + 180)) with (rad dg + PI) by (unfold rad; field). now rewrite neg_cos, neg_sin. } destruct PI180 as [I1 I2].
    destruct (dir_close (s * c) (s * h) x y (dg + 180) t (1 / 125)) as [k K]; try rewrite NS; try assumption; try lra.
    { rewrite I1, Rabs_left by lra. ring. } { rewrite I2, Rabs_left by lra. ring. }
    destruct (between_half _ _ _ AB) as [j J]. f_equal. apply N. rewrite J. apply Rabs_le_inv in K.
    replace (t - dg - 360 * IZR j) with ((t - (dg + 180) - 360 * IZR k) + (180 + 360 * IZR (k - j))) by (rewrite minus_IZR; ring). set (z := (k - j)%Z). clearbody z.
    destruct (Z_lt_le_dec z 0) as [H|H]; [assert (IZR z <= -1) by (apply IZR_le; lia); rewrite Rabs_left by lra; lra|assert (0 <= IZR z) by (apply IZR_le; lia); rewrite Rabs_pos_eq by lra; lra].
Qed.
(** The places (signed distances along the ray) clearly in front of the origin; the
    others are clearly behind it. *)
Inductive facing (m : R) : list R -> list R -> Prop :=
| facing_nil : facing m [] []
| facing_in t ts K : bpow radix2 (-17) <= t -> 256 * m <= t -> facing m ts K -> facing m (t :: ts) (t :: K)
| facing_out t ts K : t <= - bpow radix2 (-17) -> t <= - (256 * m) -> facing m ts K -> facing m (t :: ts) K.
Lemma ray_at_edist o deg s t : edist (ray_at o deg s) (ray_at o deg t) = Rabs (s - t).
Proof.
  unfold edist. rewrite <- (norm_polar (s - t) (rad deg)). f_equal. unfold psub, ray_at, px, py. cbn [fst snd]. f_equal; ring.
Qed.
Lemma ray_at_onto o deg x : on_line (- sin (rad deg)) (cos (rad deg)) (sin (rad deg) * px o - cos (rad deg) * py o) x <-> exists t, x = ray_at o deg t.
Proof.
  split; [|intros [t ->]; apply ray_at_line]. intros H. destruct x as [x y]. exists ((x - px o) * cos (rad deg) + (y - py o) * sin (rad deg)). unfold on_line, ray_at, px, py in *. cbn [fst snd] in *.
  pose proof (sin2_cos2 (rad deg)) as E. unfold Rsqr in E. set (S := sin (rad deg)) in *. set (C := cos (rad deg)) in *. assert (H' : S * (x - fst o) = C * (y - snd o)) by lra.
  f_equal.
  - replace (fst o + ((x - fst o) * C + (y - snd o) * S) * C) with (fst o + (x - fst o) * (C * C) + S * (C * (y - snd o))) by ring. rewrite <- H'. replace (fst o + (x - fst o) * (C * C) + S * (S * (x - fst o))) with (fst o + (x - fst o) * (S * S + C * C)) by ring. rewrite E. ring.
  - replace (snd o + ((x - fst o) * C + (y - snd o) * S) * S) with (snd o + (y - snd o) * (S * S) + C * (S * (x - fst o))) by ring. rewrite H'. replace (snd o + (y - snd o) * (S * S) + C * (C * (y - snd o))) with (snd o + (y - snd o) * (S * S + C * C)) by ring. rewrite E. ring.
Qed.
Lemma apart_ray o deg s t m (v w : vec F) : coords_near m v (ray_at o deg s) -> coords_near m w (ray_at o deg t) -> weakly_near v w -> bpow radix2 (-16) <= Rabs (s - t) -> 512 * m <= Rabs (s - t) -> False.
Proof.
  intros (_ & _ & V1 & V2) (_ & _ & W1 & W2) (X & Y) H1 H2.
  assert (E : edist (ray_at o deg s) (ray_at o deg t) <= 3 / 2 * (2 * m + 1 / 999998)).
  { apply edist_coord; unfold fpt, px, py in *; cbn [fst snd] in *; apply Rabs_le_inv in V1, V2, W1, W2, X, Y; apply Rabs_le; lra. }
  rewrite ray_at_edist in E. change (bpow radix2 (-16)) with (/ 65536) in H1. lra.
Qed.
(** Circle2D.intersection with a ray, in doubles.  [d] is the distance of the center from the
    line of the ray, [h] half the length of the chord; the ray is not nearly
    horizontal (p bounds its slope). *)
Theorem C174_ray_F : forall (L : libm) (k p : Z) (m : R) (c : circle F) (r : ray F) (d : R), pow_accurate L -> trig_accurate L -> atan2_accurate L -> (2 <= p <= 20)%Z -> (-60 <= k <= 60)%Z ->
  within k (c_center c) -> fbound k (c_radius c) -> 0 <= B2R (c_radius c) -> within k (ray_origin r) -> good_degree (a_degree (ray_dir r)) ->
  let deg := B2R (a_degree (ray_dir r)) in let at_ := ray_at (fpt (ray_origin r)) deg in
  2 / 999999 <= Rabs (sin (rad deg)) -> Rabs (cos (rad deg)) <= bpow radix2 (p - 2) * Rabs (sin (rad deg)) ->
  is_min_dist (fun x => exists t, x = at_ t) (fpt (c_center c)) d ->
  let rd := B2R (c_radius c) in let dl := bpow radix2 (k - 44) in let res := @Circle2D_intersection F (NumF L) c (VRay r) in
  (forall h, 0 < h -> d * d + h * h = rd * rd -> 8 * dl * (rd + dl) <= h * h -> 1 / 999999 + bpow radix2 (2 * k + 4 * p - 40) <= 2 * (h * h) ->
     cross_err k p rd h dl <= m ->
     exists s t, s <> t /\ (forall x, edist (fpt (c_center c)) (at_ x) = rd <-> x = s \/ x = t) /\ forall K, facing m [s; t] K -> reported m res (List.map at_ K)) /\
  (forall mu, 2 * dl <= mu <= bpow radix2 (k + 1) -> rd + mu <= d -> 1 / 999999 + bpow radix2 (2 * k + 4 * p - 40) <= mu * (4 * rd + mu) -> res = Ok []).
Proof.
  intros L k p m c r d PA TA AT Hp Hk WC FR R0 WO G deg at_ S1 S2 MD rd dl res.
  destruct (lclose2_angle L k (@Ray2D_origin F r) (AA (ray_dir r)) ltac:(lia) TA WO G) as (l & El & LC). cbn [arg_F] in LC. fold deg in LC. change (fpt (@Ray2D_origin F r)) with (fpt (ray_origin r)) in LC.
  set (o := fpt (ray_origin r)) in *. set (A := - sin (rad deg)) in LC. set (B := cos (rad deg)) in LC. set (C := sin (rad deg) * px o - cos (rad deg) * py o) in LC.
  assert (LN : forall x, on_line A B C x <-> exists t, x = at_ t) by (intros x; apply ray_at_onto).
  assert (MD' : is_min_dist (on_line A B C) (fpt (c_center c)) d) by (destruct MD as [(q & Q1 & Q2) Q3]; split; [exists q; split; [now apply LN|exact Q2]|intros q' Q'; apply Q3; now apply LN]).
  assert (NN : 1 * 1 = A * A + B * B) by (unfold A, B; pose proof (sin2_cos2 (rad deg)) as E; unfold Rsqr in E; lra).
  assert (DA : Rabs A = Rabs (sin (rad deg))) by apply Rabs_Ropp.
  destruct WO as (O1 & O2 & O3 & O4). pose proof (bpow_gt_0 radix2 k) as KP.
  assert (CB : Rabs C <= bpow radix2 k * Rabs A + bpow radix2 k * Rabs B).
  { unfold C. eapply Rle_trans; [apply Rabs_triang|]. rewrite Rabs_Ropp, !Rabs_mult, DA. fold B. unfold o, fpt, px, py. cbn [fst snd]. rewrite (Rmult_comm (Rabs (sin (rad deg)))), (Rmult_comm (Rabs B)). apply Rplus_le_compat; apply Rmult_le_compat_r; try apply Rabs_pos; assumption. }
  assert (SL : steep 48 0 k p A B C \/ level 48 0 k A B C l).
  { left. unfold steep. rewrite DA in *. assert (T : bpow radix2 (0 - 48 + 2) <= 2 / 999999) by (apply Rle_trans with (bpow radix2 (-19)); [apply bpow_le; lia|change (bpow radix2 (-19)) with (/ 524288); lra]).
    split; [exact S1|]. split; [lra|]. split; [exact S2|]. eapply Rle_trans; [exact CB|]. assert (P1 : 1 <= bpow radix2 (p - 2)) by (change 1 with (bpow radix2 0); apply bpow_le; lia).
    replace (bpow radix2 (k + p - 1)) with (2 * (bpow radix2 k * bpow radix2 (p - 2))) by (rewrite <- bpow_plus, <- bp2; f_equal; lia). set (s := Rabs (sin (rad deg))) in *.
    assert (Q1 : bpow radix2 k * Rabs B <= bpow radix2 k * (bpow radix2 (p - 2) * s)) by (apply Rmult_le_compat_l; [lra|exact S2]). assert (Q2 : bpow radix2 k * s * 1 <= bpow radix2 k * s * bpow radix2 (p - 2)) by (apply Rmult_le_compat_l; [apply Rmult_le_pos; lra|exact P1]). lra. }
  destruct (line_hits L 48 0 k p c l A B C 1 d PA ltac:(lia) ltac:(lia) ltac:(lia) ltac:(lia) WC FR R0 LC SL Rlt_0_1 NN MD') as [G1 G2]. cbv zeta in G1, G2. replace (0 + k - 48 + 4)%Z with (k - 44)%Z in G1, G2 by lia. replace (bpow radix2 (k - 44) / 1) with dl in G1, G2 by (unfold dl; field). fold rd in G1, G2.
  assert (RES : res = bind (@Circle2D_intersection F (NumF L) c (VLine l)) (filter_sols (fun q => @Ray2D_in_right_dir_thr F (NumF L) r q (@nlit F (NumF L) 1 1)))).
  { unfold res. cbn [Circle2D_intersection]. unfold Circle2D_intersection_ray, Ray2D_dir. change (@AngleDeg_of_angle F (NumF L) (ray_dir r)) with (@AngleDeg_of_arg F (NumF L) (AA (ray_dir r))). rewrite (proj2 (of_arg_good L _ G)). cbn [bind]. rewrite El. reflexivity. }
  split.
  - intros h H0 HH E1 E2 E3. destruct (G1 h H0 HH E1 E2) as (P & Q & PQ & IFF & v & w & V1 & V2 & RS).
    apply (near_le _ _ _ _ E3) in V1. apply (near_le _ _ _ _ E3) in V2.
    assert (OP := proj2 (IFF P) (or_introl eq_refl)). assert (OQ := proj2 (IFF Q) (or_intror eq_refl)). destruct OP as [OP CP], OQ as [OQ CQ]. apply LN in OP, OQ. destruct OP as [s ->], OQ as [t ->].
    exists s, t. split; [intros ->; now apply PQ|]. split.
    { intros x. assert (INJ : forall y, at_ x = at_ y -> x = y) by (intros y E; assert (K := ray_at_edist o deg x y); unfold at_ in E; rewrite E in K; unfold edist in K; assert (ZZ : norm (psub (ray_at o deg y) (ray_at o deg y)) = 0) by apply edist_refl; rewrite ZZ in K; destruct (Req_dec (x - y) 0) as [Z|Z]; [lra|apply Rabs_pos_lt in Z; lra]).
      split; [intros E; assert (K : at_ x = at_ s \/ at_ x = at_ t) by (apply IFF; split; [apply LN; now exists x|exact E]); destruct K as [K|K]; [left|right]; now apply INJ|intros [->| ->]; assumption]. }
    assert (BD : forall x, edist (fpt (c_center c)) (at_ x) = rd -> Rabs x <= bpow radix2 498) by (intros x K; destruct (circle_reach k c (at_ x) WC FR R0 K) as [Y1 Y2]; exact (ray_at_bound o deg x (k + 1) k ltac:(lia) O3 O4 Y1 Y2)).
    assert (AH : forall x q, edist (fpt (c_center c)) (at_ x) = rd -> coords_near m q (at_ x) -> (bpow radix2 (-17) <= x -> 256 * m <= x -> @Ray2D_in_right_dir_thr F (NumF L) r q (@nlit F (NumF L) 1 1) = Ok true) /\ (x <= - bpow radix2 (-17) -> x <= - (256 * m) -> @Ray2D_in_right_dir_thr F (NumF L) r q (@nlit F (NumF L) 1 1) = Ok false)).
    { intros x q K (Q1 & Q2 & Q3 & Q4). pose proof (bpow_gt_0 radix2 (-17)) as P17. split; intros X1 X2.
      - apply (ahead1 L r q x m AT O1 O2 Q1 Q2 G Q3 Q4); [split; [rewrite Rabs_pos_eq; lra|now apply BD]|rewrite Rabs_pos_eq; lra|lra].
      - apply (ahead1 L r q x m AT O1 O2 Q1 Q2 G Q3 Q4); [split; [rewrite Rabs_left; lra|now apply BD]|rewrite Rabs_left; lra|lra]. }
    destruct (AH s v CP V1) as [Av1 Av2]. destruct (AH t w CQ V2) as [Aw1 Aw2].
    assert (M0 : 0 <= m) by (destruct V1 as (_ & _ & V1 & _); eapply Rle_trans; [apply Rabs_pos|exact V1]). assert (B16 : bpow radix2 (-16) = 2 * bpow radix2 (-17)) by (change (-16)%Z with (1 + -17)%Z; apply bp2). pose proof (bpow_gt_0 radix2 (-17)) as P17.
    assert (FAR : weakly_near v w -> bpow radix2 (-17) <= t -> 256 * m <= t -> s <= - bpow radix2 (-17) -> s <= - (256 * m) -> False) by (intros WN X1 X2 X3 X4; apply (apart_ray o deg s t m v w V1 V2 WN); rewrite Rabs_left by lra; lra).
    assert (VV : v_valid v = true /\ (res = Ok [] \/ True)) by (split; [destruct RS as [RS|[RS _]]; assert (VV := line_valid L c l _ RS); inversion VV; assumption|now right]). destruct VV as [Z1 _].
    intros K KK.
    inversion KK as [|q' qs' K' I1 I2 KK' Q1 Q2|q' qs' K' I1 I2 KK' Q1 Q2]; subst; inversion KK' as [|q' qs' K'' J1 J2 KK'' Q1 Q2|q' qs' K'' J1 J2 KK'' Q1 Q2]; subst; inversion KK''; subst; cbn [List.map]; rewrite RES.
    + destruct RS as [RS|[RS WN]]; rewrite RS; cbn [bind filter_sols].
      * assert (VV := line_valid L c l _ RS). inversion VV as [|? ? _ VV']. inversion VV' as [|? ? Z2 _]. subst. rewrite (Aw1 J1 J2). cbn [bind negb]. rewrite (Av1 I1 I2). cbn [bind negb]. exists [v; w]. split; [constructor; [split; assumption|constructor; [split; assumption|constructor]]|left; reflexivity].
      * rewrite (Av1 I1 I2). cbn [bind negb]. exists [v; mkVec (vx w) (vy w) true]. split; [constructor; [split; assumption|constructor; [split; [reflexivity|exact V2]|constructor]]|right; exists v, (mkVec (vx w) (vy w) true); repeat split; apply WN].
    + destruct RS as [RS|[RS WN]]; rewrite RS; cbn [bind filter_sols].
      * rewrite (Aw2 J1 J2). cbn [bind negb]. rewrite (Av1 I1 I2). cbn [bind negb]. exists [v]. split; [constructor; [split; assumption|constructor]|left; reflexivity].
      * rewrite (Av1 I1 I2). cbn [bind negb]. exists [v]. split; [constructor; [split; assumption|constructor]|left; reflexivity].
    + destruct RS as [RS|[RS WN]]; rewrite RS; cbn [bind filter_sols].
      * assert (VV := line_valid L c l _ RS). inversion VV as [|? ? _ VV']. inversion VV' as [|? ? Z2 _]. subst. rewrite (Aw1 J1 J2). cbn [bind negb]. rewrite (Av2 I1 I2). cbn [bind negb List.tl]. exists [w]. split; [constructor; [split; assumption|constructor]|left; reflexivity].
      * exfalso. exact (FAR WN J1 J2 I1 I2).
    + destruct RS as [RS|[RS WN]]; rewrite RS; cbn [bind filter_sols].
      * rewrite (Aw2 J1 J2). cbn [bind negb]. rewrite (Av2 I1 I2). cbn [bind negb List.tl]. exists []. split; [constructor|left; reflexivity].
      * rewrite (Av2 I1 I2). cbn [bind negb]. exists []. split; [constructor|left; reflexivity].
  - intros mu M1 M2 M3. rewrite RES, (G2 mu M1 M2 M3). reflexivity.
Qed.

(** ** Concrete cases *)
(** A circle of radius 5 around the origin; the segment from (3,-8) to (3,8); the circle of
    radius 5 around (6,0); the ray from (3,-8) straight up the y axis. *)
Example C174_nonvacuous : let c := mkCircle (fv 0 0) (F_of_Z 5) in let s := mkSeg (fv 3 (-8)) (fv 3 8) in let o := mkCircle (fv 6 0) (F_of_Z 5) in let r := mkRay (fv 3 (-8)) (mkAngle (F_of_Z 90)) in
  let m := / 262144 in let res3 := bpow radix2 (2 * 3 - 44) / 16 in let dl := bpow radix2 (2 * 3 - 44) / 6 in let dr := bpow radix2 (3 - 44) in
  (pow_accurate libm_round /\ trig_accurate libm_round /\ atan2_accurate libm_round) /\
  (within 3 (c_center c) /\ fbound 3 (c_radius c) /\ B2R (c_radius c) = 5 /\ within 3 (s_origin s) /\ within 3 (s_terminal s) /\ within 3 (c_center o) /\ fbound 3 (c_radius o) /\ within 3 (ray_origin r) /\ good_degree (a_degree (ray_dir r))) /\
  (fpt (s_origin s) = (3, -8) /\ fpt (s_terminal s) = (3, 8) /\ edist (3, -8) (3, 8) = 16 /\ is_min_dist (on_line2 (3, -8) (3, 8)) (fpt (c_center c)) 3 /\ bpow radix2 (3 - 46) <= 16 /\
   8 * res3 * (5 + res3) <= 4 * 4 /\ cross_err 3 3 5 4 res3 <= m /\ kept m (3, -8) (3, 8) [(3, 4); (3, -4)] [(3, 4); (3, -4)]) /\
  (edist (fpt (c_center c)) (fpt (c_center o)) = 6 /\ (6 * 6 + 5 * 5 - 5 * 5) / (2 * 6) = 3 /\ bpow radix2 (3 - 48) <= 4 /\ 8 * dl * (5 + dl) <= 4 * 4) /\
  (sin (rad (B2R (a_degree (ray_dir r)))) = 1 /\ cos (rad (B2R (a_degree (ray_dir r)))) = 0 /\ is_min_dist (fun x => exists t, x = ray_at (fpt (ray_origin r)) (B2R (a_degree (ray_dir r))) t) (fpt (c_center c)) 3 /\
   8 * dr * (5 + dr) <= 4 * 4 /\ cross_err 3 3 5 4 dr <= m /\ facing m [12; 4] [12; 4]) /\
  3 * 3 + 4 * 4 = 5 * 5 /\ 1 / 999999 + bpow radix2 (2 * 3 + 4 * 3 - 40) <= 2 * (4 * 4).
Proof.
  intros c s o r m res3 dl dr. destruct (F_of_Z_exact 5 eq_refl) as [D1 D2]. destruct (F_of_Z_exact 90 eq_refl) as [E1 E2].
  assert (F5 : fbound 3 (F_of_Z 5)) by (split; [exact D2|rewrite D1, Rabs_pos_eq by lra; change (bpow radix2 3) with 8; lra]).
  assert (R38 : res3 = / 4398046511104) by (unfold res3; change (bpow radix2 (2 * 3 - 44)) with (/ 274877906944); lra). assert (DL : dl = / 1649267441664) by (unfold dl; change (bpow radix2 (2 * 3 - 44)) with (/ 274877906944); lra). assert (DR : dr = / 2199023255552) by reflexivity.
  unfold c, s, o, r. cbn [c_center c_radius s_origin s_terminal ray_origin ray_dir a_degree]. rewrite !fpt_fv by (cbn; lia). rewrite D1, E1.
  assert (R90 : rad 90 = PI / 2) by (unfold rad; field). rewrite R90, sin_PI2, cos_PI2.
  assert (MIN : forall S : point -> Prop, S (3, 0) -> (forall q, S q -> px q = 3) -> is_min_dist S (0, 0) 3).
  { intros S S1 S2. split; [exists (3, 0); split; [exact S1|apply edist_sq; [lra|]; unfold px, py; cbn [fst snd]; ring]|]. intros q Q. pose proof (edist_ge_x (0, 0) q) as K. rewrite (S2 q Q) in K. unfold px in K. cbn [fst] in K. rewrite Rabs_left in K by lra. lra. }
  split; [split; [exact pow_accurate_sq|split; [exact libm_round_trig|exact libm_round_atan2]]|].
  split; [repeat (split; [first [exact F5|reflexivity|apply within_fv; lia]|]); rewrite E1; lra|].
  change (bpow radix2 (3 - 46)) with (/ 8796093022208). change (bpow radix2 (3 - 48)) with (/ 35184372088832). change (bpow radix2 (2 * 3 + 4 * 3 - 40)) with (/ 4194304).
  assert (CE : forall x, 0 <= x <= / 1000000000000 -> cross_err 3 3 5 4 x <= m).
  { intros x Hx. unfold cross_err, m. change (bpow radix2 (2 * 3 + 5 * 3 - 39)) with (/ 262144). change (bpow radix2 (3 + 4 * 3 - 43)) with (/ 268435456). assert (x * (2 * 5 + x) <= / 1000000000000 * 11) by (apply Rmult_le_compat; lra). lra. }
  split; [|split; [|split; [|split; lra]]].
  - split; [reflexivity|]. split; [reflexivity|]. split; [apply edist_sq; [lra|]; unfold px, py; cbn [fst snd]; lra|]. split; [apply MIN; [exists (/ 2); unfold lerp; cbn [px py fst snd]; f_equal; lra|intros q [t ->]; unfold lerp; cbn [px py fst snd]; lra]|]. split; [lra|].
    rewrite R38. split; [lra|]. split; [apply CE; lra|]. unfold m. apply kept_in; [| |apply kept_in; [| |apply kept_nil]]; unfold inside_box, clear_of_ends, px, py; cbn [fst snd]; try rewrite Rmin_left, Rmax_left by lra; try rewrite (Rmin_left (-8) 8), (Rmax_right (-8) 8) by lra.
    + lra.
    + split; [left; reflexivity|right]. rewrite Rabs_pos_eq, Rabs_left by lra. lra.
    + lra.
    + split; [left; reflexivity|right]. rewrite Rabs_pos_eq, Rabs_left by lra. lra.
  - split; [apply edist_sq; [lra|]; unfold px, py; cbn [fst snd]; lra|]. split; [lra|]. split; [lra|]. rewrite DL. lra.
  - split; [reflexivity|]. split; [reflexivity|]. split; [apply MIN; [exists 8; unfold ray_at; rewrite R90, sin_PI2, cos_PI2; cbn [px py fst snd]; f_equal; lra|intros q [t ->]; unfold ray_at; rewrite R90, sin_PI2, cos_PI2; cbn [px py fst snd]; lra]|]. rewrite DR.
    split; [lra|]. split; [apply CE; lra|]. unfold m. change (bpow radix2 (-17)) with (/ 131072). repeat constructor; change (bpow radix2 (-17)) with (/ 131072); lra.
Qed.
