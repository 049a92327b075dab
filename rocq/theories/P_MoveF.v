(** * P_MoveF: histories of turns and shifts in doubles, of a vector and of a matrix (C189) *)
From Coq Require Import ZArith List Bool String Reals Lra Lia Psatz.
From Flocq Require Import Core BinarySingleNaN.
From Verif Require Import Base Types NumR NumF R_Tac Spec Spec2 Abs M_Angle M_Vector M_Matrix
  L_Angle P_Vector P_Angle P_Matrix L_Float P_Float P_Robust P_VecF P_Hull2 P_LineF P_AngleF P_TrigF P_MatF.
Import ListNotations.
Local Open Scope R_scope.

(** ** Specification: rigid motions of the plane *)
Inductive move (T : Type) := Turn (a : angle T) | Shift (x y : T).
Arguments Turn {T} a. Arguments Shift {T} x y.
Definition motion (m : move F) (p : point) : point :=
  match m with Turn a => rot p (B2R (a_degree a)) | Shift x y => (px p + B2R x, py p + B2R y) end.
Definition motions (ms : list (move F)) (p : point) : point := fold_left (fun q m => motion m q) ms p.
(** every position on the way is at most c from the origin *)
Fixpoint in_reach (c : R) (ms : list (move F)) (p : point) : Prop := norm p <= c /\ match ms with [] => True | m :: r => in_reach c r (motion m p) end.
Definition move_ok (m : move F) : Prop := match m with Turn a => good_degree (a_degree a) | Shift x y => is_finite x = true /\ is_finite y = true end.

(** ** The calls: v.rotate(a), v.add(x, y) on a vector; m.rotate(a), m.translate(x, y) on a matrix *)
Section Calls.
  Context {T : Type} `{Num T}.
  Definition move_vec (m : move T) (v : vec T) : res (vec T) :=
    match m with Turn a => Vector2D_rotate v (AA a) | Shift x y => Ok (Vector2D_add_xy v x y) end.
  Definition move_mat (m : move T) (M : matrix T) : res (matrix T) :=
    match m with Turn a => Matrix2D_rotate M a | Shift x y => Ok (Matrix2D_translate M x y) end.
  Fixpoint move_vecs (ms : list (move T)) (v : vec T) : res (vec T) := match ms with [] => Ok v | m :: r => w <- move_vec m v ;; move_vecs r w end.
  Fixpoint move_mats (ms : list (move T)) (M : matrix T) : res (matrix T) := match ms with [] => Ok M | m :: r => N <- move_mat m M ;; move_mats r N end.
End Calls.

Lemma shift_edist p q x y : edist (px p + x, py p + y) (px q + x, py q + y) = edist p q.
Proof. unfold edist, norm. f_equal. unfold norm2, psub, px, py. cbn [fst snd]. ring. Qed.
Lemma motion_edist m p q : edist (motion m p) (motion m q) = edist p q.
Proof. destruct m as [a|x y]; cbn [motion]; [apply rot_edist|apply shift_edist]. Qed.
Lemma norm_le_coord p t : Rabs (px p) <= t -> Rabs (py p) <= t -> norm p <= 2 * t.
Proof. intros A B. destruct p as [x y]. now apply norm_le. Qed.
Lemma in_reach_head c ms p : in_reach c ms p -> norm p <= c.
Proof. destruct ms; intros H; apply H. Qed.
Lemma in_reach_next c m ms p : in_reach c (m :: ms) p -> in_reach c ms (motion m p).
Proof. intros [_ H]. exact H. Qed.

(** one call: within 2^(k-47) of the motion of the vector it was called on *)
Lemma move_close L k m (v : vec F) : trig_accurate L -> (-500 <= k <= 890)%Z -> move_ok m -> within k v -> norm (motion m (fpt v)) <= bpow radix2 k ->
  exists w, @move_vec F (NumF L) m v = Ok w /\ v_valid w = v_valid v /\ is_finite (vx w) = true /\ is_finite (vy w) = true /\ edist (fpt w) (motion m (fpt v)) <= bpow radix2 (k - 47).
Proof.
  intros TA Hk OK W N. destruct m as [a|x y]; cbn [move_vec motion move_ok] in *.
  - destruct (rotate_close L k v (AA a) TA ltac:(lia) W OK) as (w & A & B & (C & D) & E). exists w. repeat split; assumption.
  - destruct OK as [X Y]. destruct W as (V1 & V2 & _ & _). eexists. split; [reflexivity|]. unfold Vector2D_add_xy. cbn [vx vy v_valid nadd NumF]. split; [reflexivity|].
    destruct (coord_norm (px (fpt v) + B2R x, py (fpt v) + B2R y)) as [C1 C2]. unfold fpt, px, py in C1, C2. cbn [fst snd] in C1, C2. 
    assert (B1 : Rabs (B2R (vx v) + B2R x) <= bpow radix2 k) by (eapply Rle_trans; [exact C1|exact N]). assert (B2 : Rabs (B2R (vy v) + B2R y) <= bpow radix2 k) by (eapply Rle_trans; [exact C2|exact N]).
    destruct (rnd_err _ k ltac:(lia) B1) as [E1 E2]. destruct (rnd_err _ k ltac:(lia) B2) as [G1 G2].
    destruct (F_add (vx v) x V1 X) as [S1 S2]; [apply (finite_lt k); [lia|exact E2]|]. destruct (F_add (vy v) y V2 Y) as [T1 T2]; [apply (finite_lt k); [lia|exact G2]|].
    split; [exact S2|]. split; [exact T2|]. eapply Rle_trans; [apply (edist_coord _ _ (bpow radix2 (k - 54))); unfold fpt, px, py; cbn [fst snd vx vy]; [rewrite S1; exact E1|rewrite T1; exact G1]|].
    replace (k - 47)%Z with (7 + (k - 54))%Z by lia. rewrite (bpow_plus radix2 7). change (bpow radix2 7) with 128. pose proof (bpow_gt_0 radix2 (k - 54)). lra.
Qed.
Lemma moves_err L k ms : trig_accurate L -> (-500 <= k <= 890)%Z -> Forall move_ok ms -> forall n (v : vec F) p, is_finite (vx v) = true -> is_finite (vy v) = true ->
  INR (n + List.length ms) <= 1099511627776 -> edist (fpt v) p <= INR n * bpow radix2 (k - 47) -> in_reach (bpow radix2 (k - 1)) ms p ->
  exists w, @move_vecs F (NumF L) ms v = Ok w /\ v_valid w = v_valid v /\ is_finite (vx w) = true /\ is_finite (vy w) = true /\ edist (fpt w) (motions ms p) <= INR (n + List.length ms) * bpow radix2 (k - 47).
Proof.
  intros TA Hk OK. set (e := bpow radix2 (k - 47)). assert (PE : 0 < e) by apply bpow_gt_0.
  assert (EK : bpow radix2 (k - 1) = 70368744177664 * e) by (unfold e; change 70368744177664 with (bpow radix2 46); rewrite <- bpow_plus; f_equal; lia).
  assert (EK1 : bpow radix2 k = 2 * bpow radix2 (k - 1)) by (replace k with (1 + (k - 1))%Z at 1 by lia; apply bp2).
  induction OK as [|m ms OKm OK IH]; intros n v p F1 F2 HN ED IR.
  { exists v. cbn [move_vecs motions fold_left List.length]. rewrite Nat.add_0_r. repeat split; assumption. }
  cbn [List.length] in *. rewrite Nat.add_succ_r in *. rewrite <- Nat.add_succ_l in *.
  assert (N1 : INR n * e + e <= bpow radix2 (k - 1)).
  { assert (INR n + 1 <= 1099511627776) by (rewrite <- S_INR; eapply Rle_trans; [|exact HN]; apply le_INR; lia). rewrite EK. replace (INR n * e + e) with ((INR n + 1) * e) by ring. apply Rmult_le_compat_r; lra. }
  assert (NV : norm (fpt v) <= bpow radix2 k). { pose proof (edist_triangle (fpt v) p (0, 0)) as T. rewrite <- !norm_edist in T. pose proof (in_reach_head _ _ _ IR). lra. }
  pose proof (in_reach_next _ _ _ _ IR) as IR'.
  assert (NM : norm (motion m (fpt v)) <= bpow radix2 k).
  { pose proof (edist_triangle (motion m (fpt v)) (motion m p) (0, 0)) as T. rewrite motion_edist, <- !norm_edist in T. pose proof (in_reach_head _ _ _ IR'). lra. }
  destruct (coord_norm (fpt v)) as [B1 B2].
  destruct (move_close L k m v TA Hk OKm) as (w & W1 & W2 & W3 & W4 & W5); [split; [assumption|split; [assumption|split]]; eapply Rle_trans; eassumption|exact NM|]. fold e in W5.
  destruct (IH (S n) w (motion m p) W3 W4 HN) as (z & Z1 & Z2 & Z3 & Z4 & Z5); [|exact IR'|].
  { eapply Rle_trans; [apply (edist_triangle _ (motion m (fpt v)))|]. rewrite motion_edist, S_INR. lra. }
  exists z. cbn [move_vecs]. rewrite W1. cbn [bind]. split; [exact Z1|]. split; [congruence|]. split; [exact Z3|]. split; [exact Z4|exact Z5].
Qed.
(** C189: any history of rotate and add calls on one vector *)
Theorem C189_vector_F : forall (L : libm) (k : Z) (ms : list (move F)) (v : vec F), trig_accurate L -> (-500 <= k <= 890)%Z -> Forall move_ok ms ->
  is_finite (vx v) = true -> is_finite (vy v) = true -> INR (List.length ms) <= 1099511627776 -> in_reach (bpow radix2 (k - 1)) ms (fpt v) ->
  exists w, @move_vecs F (NumF L) ms v = Ok w /\ v_valid w = v_valid v /\ is_finite (vx w) = true /\ is_finite (vy w) = true /\
    edist (fpt w) (motions ms (fpt v)) <= INR (List.length ms) * bpow radix2 (k - 47).
Proof.
  intros L k ms v TA Hk OK F1 F2 HN IR. destruct (moves_err L k ms TA Hk OK 0%nat v (fpt v) F1 F2 HN) as (w & W); [|exact IR|exists w; exact W].
  rewrite edist_refl. cbn [INR]. lra.
Qed.

(** ** Matrices: the columns move like vectors, the first two without the shifts *)
Definition col1 (M : matrix F) : vec F := mkVec (m11 M) (m21 M) true.
Definition col2 (M : matrix F) : vec F := mkVec (m12 M) (m22 M) true.
Definition col3 (M : matrix F) : vec F := mkVec (mdx M) (mdy M) true.
Definition turns (ms : list (move F)) : list (move F) := filter (fun m => match m with Turn _ => true | Shift _ _ => false end) ms.
Lemma rotate_cols L M a N : good_degree (a_degree a) -> @Matrix2D_rotate F (NumF L) M a = Ok N ->
  @Vector2D_rotate F (NumF L) (col1 M) (AA a) = Ok (col1 N) /\ @Vector2D_rotate F (NumF L) (col2 M) (AA a) = Ok (col2 N) /\ @Vector2D_rotate F (NumF L) (col3 M) (AA a) = Ok (col3 N).
Proof.
  intros G. unfold Matrix2D_rotate, AngleDeg_sin, AngleDeg_cos, Vector2D_rotate, ang_num. rewrite degree_F_good by now right. cbn [bind].
  destruct (nsin _) as [s|]; cbn [bind]; [|discriminate]. destruct (ncos _) as [c|]; cbn [bind]; [|discriminate]. intros H. injection H as <-. repeat split; reflexivity.
Qed.
Lemma rotate_returns L M a : trig_accurate L -> good_degree (a_degree a) -> exists N, @Matrix2D_rotate F (NumF L) M a = Ok N.
Proof.
  intros TA G. destruct (trig_close L (a_degree a) TA (proj1 G) (good_512 _ G)) as ((c & C1 & _) & (s & S1 & _)). unfold Matrix2D_rotate, AngleDeg_sin, AngleDeg_cos. rewrite S1. cbn [bind]. rewrite C1. cbn [bind]. eauto.
Qed.
Lemma mats_cols L ms : trig_accurate L -> Forall move_ok ms -> forall M, exists N, @move_mats F (NumF L) ms M = Ok N /\
  @move_vecs F (NumF L) (turns ms) (col1 M) = Ok (col1 N) /\ @move_vecs F (NumF L) (turns ms) (col2 M) = Ok (col2 N) /\ @move_vecs F (NumF L) ms (col3 M) = Ok (col3 N).
Proof.
  intros TA OK. induction OK as [|m ms OKm OK IH]; intros M; [exists M; repeat split; reflexivity|]. destruct m as [a|x y]; cbn [move_mats move_mat move_vecs turns filter move_vec].
  - destruct (rotate_returns L M a TA OKm) as [N HN]. destruct (rotate_cols L M a N OKm HN) as (C1 & C2 & C3). destruct (IH N) as (P & P1 & P2 & P3 & P4). exists P. rewrite HN, C1, C2, C3. cbn [bind]. repeat split; assumption.
  - destruct (IH (@Matrix2D_translate F (NumF L) M x y)) as (P & P1 & P2 & P3 & P4). exists P. cbn [bind]. repeat split; assumption.
Qed.
(** the exact motion, by columns *)
Lemma motions_linear ms : forall x y a b c, motions ms (x * px a + y * px b + px c, x * py a + y * py b + py c) =
  (x * px (motions (turns ms) a) + y * px (motions (turns ms) b) + px (motions ms c), x * py (motions (turns ms) a) + y * py (motions (turns ms) b) + py (motions ms c)).
Proof.
  induction ms as [|m ms IH]; intros x y a b c; [reflexivity|]. destruct m as [d|s t]; cbn [motions fold_left turns filter motion]; fold (turns ms).
  - change (fold_left (fun q m => motion m q) ms) with (motions ms). change (fold_left (fun q m => motion m q) (turns ms)) with (motions (turns ms)). rewrite <- IH. f_equal. unfold rot, px, py. cbn [fst snd]. f_equal; ring.
  - change (fold_left (fun q m => motion m q) ms) with (motions ms). change (fold_left (fun q m => motion m q) (turns ms)) with (motions (turns ms)). rewrite <- IH. f_equal. unfold px, py. cbn [fst snd]. f_equal; ring.
Qed.
Lemma turns_reach ms p : in_reach (norm p) (turns ms) p.
Proof.
  assert (G : forall c p, norm p <= c -> in_reach c (turns ms) p).
  { intros c. induction ms as [|m ms IH]; intros q H; [now split|]. destruct m as [d|s t]; cbn [turns filter]; fold (turns ms); [|now apply IH]. split; [exact H|]. apply IH. cbn [motion]. now rewrite rot_norm. }
  apply G. apply Rle_refl.
Qed.
Lemma turns_len ms : (List.length (turns ms) <= List.length ms)%nat.
Proof. induction ms as [|m ms IH]; [reflexivity|]. destruct m; cbn [turns filter List.length]; fold (turns ms); lia. Qed.
Lemma turns_ok ms : Forall move_ok ms -> Forall move_ok (turns ms).
Proof. intros H. apply Forall_forall. intros m Hm. apply filter_In in Hm. rewrite Forall_forall in H. apply H, Hm. Qed.
Lemma motions_norm ms p : norm (motions (turns ms) p) = norm p.
Proof.
  revert p. induction ms as [|m ms IH]; intros p; [reflexivity|]. destruct m as [d|s t]; cbn [turns filter]; fold (turns ms); [|apply IH].
  change (motions (Turn d :: turns ms) p) with (motions (turns ms) (motion (Turn d) p)). rewrite IH. apply rot_norm.
Qed.
Lemma edist_px p q e : edist p q <= e -> Rabs (px p - px q) <= e /\ Rabs (py p - py q) <= e.
Proof. intros H. destruct (coord_norm (psub p q)) as [A B]. split; eapply Rle_trans; try exact H; [exact A|exact B]. Qed.
(** C189: any history of rotate and translate calls on one matrix: transforming a
    point by the result carries it through all the motions *)
Theorem C189_matrix_F : forall (L : libm) (k : Z) (ms : list (move F)), trig_accurate L -> (-200 <= k <= 199)%Z -> Forall move_ok ms ->
  INR (List.length ms) <= 1099511627776 -> in_reach (bpow radix2 (k - 1)) ms (0, 0) ->
  exists N, @move_mats F (NumF L) ms (@Matrix2D_identity F (NumF L)) = Ok N /\
    forall v : vec F, within k v ->
      coords_near ((INR (List.length ms) + 1) * bpow radix2 (k - 44)) (@Matrix2D_transform F (NumF L) N v) (motions ms (fpt v)).
Proof.
  intros L k ms TA Hk OK HN IR. destruct (mats_cols L ms TA OK (@Matrix2D_identity F (NumF L))) as (N & N0 & N1 & N2 & N3). exists N. split; [exact N0|]. intros v W.
  assert (HT : INR (0 + List.length (turns ms)) <= 1099511627776) by (eapply Rle_trans; [apply le_INR, turns_len|exact HN]).
  assert (LT : INR (List.length (turns ms)) <= INR (List.length ms)) by (apply le_INR, turns_len). set (n := INR (List.length ms)) in *. assert (P0 : 0 <= n) by apply pos_INR.
  change (@Matrix2D_identity F (NumF L)) with (mkMat (F_of_Z 1) (@nlit F (NumF L) 0 1) (@nlit F (NumF L) 0 1) (F_of_Z 1) (@nlit F (NumF L) 0 1) (@nlit F (NumF L) 0 1)) in *. change (@nlit F (NumF L) 0 1) with (B754_zero false : F) in *.
  unfold col1, col2, col3 in N1, N2, N3. cbn [m11 m12 m21 m22 mdx mdy] in N1, N2, N3.
  set (c1 := mkVec (F_of_Z 1) (B754_zero false : F) true) in *. set (c2 := mkVec (B754_zero false : F) (F_of_Z 1) true) in *. set (c3 := mkVec (B754_zero false : F) (B754_zero false : F) true) in *.
  assert (E1 : fpt c1 = (1, 0)) by (unfold fpt, c1; cbn [vx vy]; rewrite (proj1 (F_of_Z_exact 1 eq_refl)); reflexivity). assert (E2 : fpt c2 = (0, 1)) by (unfold fpt, c2; cbn [vx vy]; rewrite (proj1 (F_of_Z_exact 1 eq_refl)); reflexivity). assert (E3 : fpt c3 = (0, 0)) by reflexivity.
  assert (U1 : norm (1, 0) = 1) by (unfold norm, norm2, px, py; cbn [fst snd]; replace (1 * 1 + 0 * 0) with 1 by ring; apply sqrt_1). assert (U2 : norm (0, 1) = 1) by (unfold norm, norm2, px, py; cbn [fst snd]; replace (0 * 0 + 1 * 1) with 1 by ring; apply sqrt_1).
  assert (R1 : in_reach (bpow radix2 (1 - 1)) (turns ms) (fpt c1)) by (rewrite E1; pose proof (turns_reach ms (1, 0)) as X; rewrite U1 in X; exact X).
  assert (R2 : in_reach (bpow radix2 (1 - 1)) (turns ms) (fpt c2)) by (rewrite E2; pose proof (turns_reach ms (0, 1)) as X; rewrite U2 in X; exact X).
  destruct (C189_vector_F L 1 (turns ms) c1 TA ltac:(lia) (turns_ok _ OK) eq_refl eq_refl HT R1) as (w1 & A1 & _ & A2 & A3 & A4). rewrite N1 in A1. injection A1 as <-.
  destruct (C189_vector_F L 1 (turns ms) c2 TA ltac:(lia) (turns_ok _ OK) eq_refl eq_refl HT R2) as (w2 & B1 & _ & B2 & B3 & B4). rewrite N2 in B1. injection B1 as <-.
  destruct (C189_vector_F L k ms c3 TA ltac:(lia) OK eq_refl eq_refl HN IR) as (w3 & C1 & _ & C2 & C3 & C4). rewrite N3 in C1. injection C1 as <-.
  cbn [vx vy] in *. rewrite E1 in A4. rewrite E2 in B4. rewrite E3 in C4. fold n in C4.
  assert (PE : 0 < bpow radix2 (1 - 47)) by apply bpow_gt_0. set (e := bpow radix2 (k - 47)) in *. assert (PK : 0 < e) by apply bpow_gt_0.
  assert (A5 : INR (List.length (turns ms)) * bpow radix2 (1 - 47) <= n * bpow radix2 (1 - 47)) by (apply Rmult_le_compat_r; lra).
  assert (S1 : n * bpow radix2 (1 - 47) <= / 64). { change (bpow radix2 (1 - 47)) with (/ 70368744177664). lra. }
  assert (EK : bpow radix2 k = 140737488355328 * e) by (unfold e; change 140737488355328 with (bpow radix2 47); rewrite <- bpow_plus; f_equal; lia).
  assert (EK1 : bpow radix2 k = 2 * bpow radix2 (k - 1)) by (replace k with (1 + (k - 1))%Z at 1 by lia; apply bp2).
  assert (S3 : n * e <= bpow radix2 (k - 1)). { assert (n * e <= 1099511627776 * e) by (apply Rmult_le_compat_r; lra). lra. }
  assert (KE : bpow radix2 k * (n * bpow radix2 (1 - 47)) = 2 * (n * e)). { replace (bpow radix2 (1 - 47)) with (2 * / 140737488355328) by (change (bpow radix2 (1 - 47)) with (/ 70368744177664); lra). rewrite EK. field. }
  set (Q1 := motions (turns ms) (1, 0)) in *. set (Q2 := motions (turns ms) (0, 1)) in *. set (Q3 := motions ms (0, 0)) in *.
  destruct (edist_px _ _ _ (Rle_trans _ _ _ A4 A5)) as [D1 D2]. destruct (edist_px _ _ _ (Rle_trans _ _ _ B4 A5)) as [D3 D4]. destruct (edist_px _ _ _ C4) as [D5 D6].
  assert (Q1N : norm Q1 = 1) by (unfold Q1; rewrite motions_norm; exact U1). assert (Q2N : norm Q2 = 1) by (unfold Q2; rewrite motions_norm; exact U2).
  assert (Q3N : norm Q3 <= bpow radix2 (k - 1)). { unfold Q3. clear - IR. revert IR. generalize (0, 0). induction ms as [|m ms IH]; intros p H; [apply H|]. apply (IH (motion m p)), H. }
  destruct (coord_norm Q1) as [M1 M2]. destruct (coord_norm Q2) as [M3 M4]. destruct (coord_norm Q3) as [M5 M6]. rewrite Q1N in M1, M2. rewrite Q2N in M3, M4.
  unfold fpt, px, py in D1, D2, D3, D4, D5, D6. cbn [fst snd vx vy] in D1, D2, D3, D4, D5, D6. fold (px Q1) (py Q1) (px Q2) (py Q2) (px Q3) (py Q3) in D1, D2, D3, D4, D5, D6.
  assert (BB : forall x y d c, Rabs (x - y) <= d -> Rabs y <= c -> Rabs x <= c + d). { intros x y d c H1 H2. apply Rabs_le_inv in H1, H2. apply Rabs_le. lra. }
  assert (MW : mat_within 1 (1 + k) N).
  { assert (K1 : bpow radix2 (1 + k) = 2 * bpow radix2 k) by (rewrite bpow_plus; reflexivity). change (bpow radix2 1) with 2.
    assert (G1 : bpow radix2 1 = 2) by reflexivity. pose proof (bpow_gt_0 radix2 k).
    split; [|split; [|split; [|split; [|split]]]]; (split; [assumption|]); (eapply Rle_trans; [eapply BB; eassumption|]); lra. }
  destruct (C146_transform_F L 1 k N v ltac:(lia) ltac:(lia) MW W) as [(T1 & T2 & T3 & T4) _]. destruct W as (_ & _ & V1 & V2).
  assert (ML : motions ms (fpt v) = (B2R (vx v) * px Q1 + B2R (vy v) * px Q2 + px Q3, B2R (vx v) * py Q1 + B2R (vy v) * py Q2 + py Q3)).
  { unfold Q1, Q2, Q3. rewrite <- motions_linear. f_equal. unfold fpt, px, py. cbn [fst snd]. f_equal; ring. }
  split; [exact T1|]. split; [exact T2|]. rewrite ML. unfold affine, rmat, fpt, px, py in T3, T4. cbn [fst snd m11 m12 m21 m22 mdx mdy] in T3, T4.
  assert (RE : bpow radix2 (1 + k - 51) <= e) by (apply bpow_le; lia).
  assert (E8 : bpow radix2 (k - 44) = 8 * e). { unfold e. replace (k - 44)%Z with (3 + (k - 47))%Z by lia. rewrite bpow_plus. reflexivity. }
  assert (PR : forall x a q, Rabs x <= bpow radix2 k -> Rabs (a - q) <= n * bpow radix2 (1 - 47) -> Rabs (a * x - x * q) <= 2 * (n * e)).
  { intros x a q HX HA. replace (a * x - x * q) with (x * (a - q)) by ring. rewrite Rabs_mult, <- KE. apply Rmult_le_compat; try apply Rabs_pos; assumption. }
  assert (NE : 0 <= n * e) by (apply Rmult_le_pos; lra).
  rewrite E8. split.
  - unfold px at 1. cbn [fst]. pose proof (PR _ _ _ V1 D1) as Y1. pose proof (PR _ _ _ V2 D3) as Y2. apply Rabs_le_inv in T3, Y1, Y2, D5. apply Rabs_le. lra.
  - unfold py at 1. cbn [snd]. pose proof (PR _ _ _ V1 D2) as Y1. pose proof (PR _ _ _ V2 D4) as Y2. apply Rabs_le_inv in T4, Y1, Y2, D6. apply Rabs_le. lra.
Qed.
(** C189: the same history on a vector and on a matrix: both give the same point up to rounding *)
Theorem C189_agree_F : forall (L : libm) (k : Z) (ms : list (move F)) (v : vec F), trig_accurate L -> (-200 <= k <= 199)%Z -> Forall move_ok ms ->
  INR (List.length ms) <= 1099511627776 -> in_reach (bpow radix2 (k - 1)) ms (0, 0) -> is_finite (vx v) = true -> is_finite (vy v) = true -> in_reach (bpow radix2 (k - 1)) ms (fpt v) ->
  exists N w, @move_mats F (NumF L) ms (@Matrix2D_identity F (NumF L)) = Ok N /\ @move_vecs F (NumF L) ms v = Ok w /\
    coords_near ((INR (List.length ms) + 1) * bpow radix2 (k - 43)) (@Matrix2D_transform F (NumF L) N v) (fpt w).
Proof.
  intros L k ms v TA Hk OK HN IR F1 F2 IV. destruct (C189_matrix_F L k ms TA Hk OK HN IR) as (N & N1 & N2). destruct (C189_vector_F L k ms v TA ltac:(lia) OK F1 F2 HN IV) as (w & W1 & _ & _ & _ & W2). exists N, w. split; [exact N1|]. split; [exact W1|].
  assert (WV : within k v). { pose proof (in_reach_head _ _ _ IV). destruct (coord_norm (fpt v)) as [B1 B2]. assert (bpow radix2 (k - 1) <= bpow radix2 k) by (apply bpow_le; lia). unfold fpt, px, py in B1, B2. cbn [fst snd] in B1, B2. fold (fpt v) in B1, B2. repeat split; try assumption; eapply Rle_trans; try eassumption; eapply Rle_trans; eassumption. }
  destruct (N2 v WV) as (T1 & T2 & T3 & T4). split; [exact T1|]. split; [exact T2|]. destruct (edist_px _ _ _ W2) as [X Y]. set (n := INR (List.length ms)) in *. assert (P0 : 0 <= n) by apply pos_INR.
  assert (E1 : bpow radix2 (k - 43) = 16 * bpow radix2 (k - 47)) by (replace (k - 43)%Z with (4 + (k - 47))%Z by lia; rewrite bpow_plus; reflexivity). assert (E2 : bpow radix2 (k - 44) = 8 * bpow radix2 (k - 47)) by (replace (k - 44)%Z with (3 + (k - 47))%Z by lia; rewrite bpow_plus; reflexivity).
  pose proof (bpow_gt_0 radix2 (k - 47)) as PE. assert (NE : 0 <= n * bpow radix2 (k - 47)) by (apply Rmult_le_pos; lra). rewrite E1. rewrite E2 in T3, T4. apply Rabs_le_inv in T3, T4, X, Y. split; apply Rabs_le; lra.
Qed.

(** ** A case meeting the hypotheses: shift by (1, 0), turn by 90 degrees, shift by (0, 2) *)
Example C189_nonvacuous : let ms := [Shift (F_of_Z 1) (F_of_Z 0); Turn (mkAngle (F_of_Z 90)); Shift (F_of_Z 0) (F_of_Z 2)] in
  Forall move_ok ms /\ in_reach (bpow radix2 (3 - 1)) ms (0, 0) /\ motions ms (0, 0) = (0, 3) /\ trig_accurate libm_round.
Proof.
  cbv zeta. assert (E : forall x, (Z.abs x <= 100)%Z -> B2R (F_of_Z x) = IZR x) by (intros x X; apply F_of_Z_exact; lia).
  assert (FI : forall x, (Z.abs x <= 100)%Z -> is_finite (F_of_Z x) = true) by (intros x X; apply F_of_Z_exact; lia).
  assert (RT : rot (1, 0) 90 = (0, 1)). { unfold rot, px, py. cbn [fst snd]. replace (rad 90) with (PI / 2) by (unfold rad; field). rewrite ?cos_PI2, ?sin_PI2. f_equal; ring. }
  assert (M1 : motion (Shift (F_of_Z 1) (F_of_Z 0)) (0, 0) = (1, 0)) by (cbn [motion]; rewrite !E by lia; unfold px, py; cbn [fst snd]; f_equal; lra).
  assert (M2 : motion (Turn (mkAngle (F_of_Z 90))) (1, 0) = (0, 1)) by (cbn [motion a_degree]; rewrite E by lia; exact RT).
  assert (M3 : motion (Shift (F_of_Z 0) (F_of_Z 2)) (0, 1) = (0, 3)) by (cbn [motion]; rewrite !E by lia; unfold px, py; cbn [fst snd]; f_equal; lra).
  assert (NB : forall x y, Rabs x <= 2 -> Rabs y <= 2 -> norm (x, y) <= 4) by (intros x y X Y; pose proof (norm_le x y 2 X Y); lra).
  split; [|split; [|split]].
  - constructor; [|constructor; [|constructor; [|constructor]]]; cbn [move_ok a_degree]; try (split; apply FI; lia). unfold good_degree. rewrite E by lia. split; [apply FI; lia|]. lra.
  - cbn [in_reach]. rewrite M1, M2, M3. change (bpow radix2 (3 - 1)) with 4. repeat split; try (apply NB; apply Rabs_le; lra).
    assert (X : norm (0, 3) = 3); [|lra]. unfold norm, norm2, px, py. cbn [fst snd]. replace (0 * 0 + 3 * 3) with (3 * 3) by ring. apply sqrt_square. lra.
  - unfold motions. cbn [fold_left]. now rewrite M1, M2, M3.
  - apply libm_round_trig.
Qed.
