(** * P_Soccer: properties C85-C96 and C103, C104 over ideal reals *)
From Coq Require Import ZArith List Bool String Reals Lra Lia Psatz.
From Flocq Require Import Core.
From Verif Require Import Base Types NumR R_Tac Spec Spec2 Abs M_Angle M_Vector M_Soccer L_Angle L_Trig P_Angle P_Vector.
Import ListNotations.
Local Open Scope R_scope.

(** ** Specification: an object coasting with decay.  In every step it moves by
    its velocity and the velocity is multiplied by the decay. *)
Fixpoint coast (n : nat) (p v : point) (d : R) : point :=
  match n with
  | O => p
  | S n' => coast n' (px p + px v, py p + py v) (d * px v, d * py v) d
  end.
Definition coasted_speed (n : nat) (s d : R) : R := Rsum (map (fun k => s * d ^ k) (seq 0 n)).

Lemma coast_closed n : forall p v d, d <> 1 ->
  coast n p v d = (px p + px v * ((1 - d ^ n) / (1 - d)), py p + py v * ((1 - d ^ n) / (1 - d))).
Proof.
  induction n as [|n IH]; intros p v d Hd; cbn [coast].
  - destruct p; cbn. f_equal; field; lra.
  - rewrite IH by easy. cbn [px py fst snd pow]. unfold px, py; cbn [fst snd]. f_equal; field; lra.
Qed.
Lemma Rsum_app l l' : Rsum (l ++ l') = Rsum l + Rsum l'.
Proof. unfold Rsum. induction l as [|a l IH]; cbn; [lra|rewrite IH; lra]. Qed.
Lemma series_closed s d n : d <> 1 -> coasted_speed n s d = s * (1 - d ^ n) / (1 - d).
Proof.
  intros Hd. unfold coasted_speed. induction n as [|n IH]; [cbn; field; lra|].
  rewrite seq_S, map_app, Rsum_app, IH. cbn. field. lra.
Qed.

(** ** C85 *)
Lemma travel_R vel n d : d <> 1 -> inertia_n_step_travel vel (Z.of_nat n) d = Ok (V (px (pt vel) * ((1 - d ^ n) / (1 - d))) (py (pt vel) * ((1 - d ^ n) / (1 - d)))).
Proof.
  intros Hd. unfold inertia_n_step_travel. rnum. rewrite Rpowi_py_nat. rewrite Rdiv_py_ok by lra. unfold Vector2D_mul, V, pt, px, py. rnum. reflexivity.
Qed.
Theorem C85_inertia_R : forall (pos vel : vec R) (n : nat) (speed decay : R),
  (decay <> 1 ->
     (exists t, inertia_n_step_travel vel (Z.of_nat n) decay = Ok t /\ pt t = coast n (0, 0) (pt vel) decay) /\
     (exists q, inertia_n_step_point pos vel (Z.of_nat n) decay = Ok q /\ pt q = coast n (pt pos) (pt vel) decay) /\
     inertia_n_step_distance speed (Z.of_nat n) decay = Ok (coasted_speed n speed decay)) /\
  (decay = 1 ->
     inertia_n_step_travel vel (Z.of_nat n) decay = Raise ZeroDivisionError /\
     inertia_n_step_point pos vel (Z.of_nat n) decay = Raise ZeroDivisionError /\
     inertia_n_step_distance speed (Z.of_nat n) decay = Raise ZeroDivisionError).
Proof.
  intros pos vel n s d. split.
  - intros Hd. split; [|split].
    + rewrite travel_R by easy. eexists; split; [reflexivity|]. rewrite coast_closed by easy. unfold pt, V, px, py; cbn. f_equal; lra.
    + unfold inertia_n_step_point. rewrite travel_R by easy. cbn [bind]. eexists; split; [reflexivity|]. rewrite coast_closed by easy. unfold Vector2D_add, pt, V, px, py; rnum; cbn. reflexivity.
    + unfold inertia_n_step_distance. rnum. rewrite Rpowi_py_nat. rewrite Rdiv_py_ok by lra. now rewrite series_closed.
  - intros ->. assert (E : forall x, Rdiv_py x (1 - 1) = Raise ZeroDivisionError) by (intros; unfold Rdiv_py; rewrite Req_bool_true by lra; easy).
    unfold inertia_n_step_point, inertia_n_step_travel, inertia_n_step_distance. rnum. rewrite Rpowi_py_nat. rewrite !E. auto.
Qed.
Example C85_nonvacuous : coast 2 (0, 0) (1, 2) (1/2) = (3/2, 3) /\ coasted_speed 3 4 (1/2) = 7.
Proof. split; [cbn; unfold px, py; cbn; f_equal; lra|]. unfold coasted_speed, Rsum; cbn; lra. Qed.

(** ** C86 *)
Lemma pow_lim d : Rabs d < 1 -> forall c, Un_cv (fun n => c * (1 - d ^ n) / (1 - d)) (c / (1 - d)).
Proof.
  intros Hd c eps He. assert (D1 : 1 - d <> 0) by (unfold Rabs in Hd; destruct (Rcase_abs d); lra).
  pose (K := Rabs (c / (1 - d)) + 1). assert (KP : 0 < K) by (unfold K; pose proof (Rabs_pos (c / (1 - d))); lra).
  destruct (pow_lt_1_zero d Hd (eps / K)) as [N HN]; [apply Rdiv_lt_0_compat; lra|].
  exists N. intros n Hn. specialize (HN n Hn). unfold R_dist. replace (c * (1 - d ^ n) / (1 - d) - c / (1 - d)) with (- (c / (1 - d)) * d ^ n) by (field; easy).
  rewrite Rabs_mult, Rabs_Ropp. apply Rle_lt_trans with (K * Rabs (d ^ n)); [apply Rmult_le_compat_r; [apply Rabs_pos|unfold K; lra]|].
  apply Rlt_le_trans with (K * (eps / K)); [apply Rmult_lt_compat_l; lra|]. right. field. lra.
Qed.
Theorem C86_final_R : forall (pos vel : vec R) (speed decay : R), Rabs decay < 1 ->
  exists t q s, inertia_final_travel vel decay = Ok t /\ inertia_final_point pos vel decay = Ok q /\ inertia_final_distance speed decay = Ok s /\
    Un_cv (fun n => px (coast n (0, 0) (pt vel) decay)) (vx t) /\ Un_cv (fun n => py (coast n (0, 0) (pt vel) decay)) (vy t) /\
    Un_cv (fun n => px (coast n (pt pos) (pt vel) decay)) (vx q) /\ Un_cv (fun n => py (coast n (pt pos) (pt vel) decay)) (vy q) /\
    Un_cv (fun n => coasted_speed n speed decay) s /\
    (* after n steps, what is left is the final travel of the decayed velocity *)
    forall n, exists t1 t2, inertia_n_step_travel vel (Z.of_nat n) decay = Ok t1 /\ inertia_final_travel (Vector2D_mul vel (decay ^ n)) decay = Ok t2 /\ pt t = pt (Vector2D_add t1 t2).
Proof.
  intros pos vel s d Hd. assert (D1 : d <> 1) by (unfold Rabs in Hd; destruct (Rcase_abs d); lra).
  assert (FT : forall v : vec R, inertia_final_travel v d = Ok (V (vx v / (1 - d)) (vy v / (1 - d)))).
  { intros v. unfold inertia_final_travel, Vector2D_truediv, V. rnum. cbn [vx vy]. rewrite !Rdiv_py_ok by lra. reflexivity. }
  assert (CV : forall c, Un_cv (fun n => c * ((1 - d ^ n) / (1 - d))) (c / (1 - d))).
  { intros c. pose proof (pow_lim d Hd c) as H. intros eps He. destruct (H eps He) as [N HN]. exists N. intros n Hn. specialize (HN n Hn). unfold Rdiv in *. rewrite <- Rmult_assoc. exact HN. }
  assert (CVa : forall a c, Un_cv (fun n => a + c * ((1 - d ^ n) / (1 - d))) (a + c / (1 - d))).
  { intros a c eps He. destruct (CV c eps He) as [N HN]. exists N. intros n Hn. specialize (HN n Hn). unfold R_dist in *. replace (a + c * ((1 - d ^ n) / (1 - d)) - (a + c / (1 - d))) with (c * ((1 - d ^ n) / (1 - d)) - c / (1 - d)) by ring. exact HN. }
  assert (EXT : forall f g l, (forall n, f n = g n) -> Un_cv g l -> Un_cv f l).
  { intros f g l E H eps He. destruct (H eps He) as [N HN]. exists N. intros n Hn. rewrite E. now apply HN. }
  rewrite FT. unfold inertia_final_point. rewrite FT. cbn [bind]. unfold inertia_final_distance. rnum. rewrite Rdiv_py_ok by lra.
  do 3 eexists. do 3 (split; [reflexivity|]). unfold Vector2D_add, V. rnum. cbn [vx vy].
  split; [|split; [|split; [|split; [|split]]]].
  - apply (EXT _ (fun n => vx vel * ((1 - d ^ n) / (1 - d)))); [|apply CV]. intros n. rewrite coast_closed by easy. cbn. unfold pt, px; cbn. lra.
  - apply (EXT _ (fun n => vy vel * ((1 - d ^ n) / (1 - d)))); [|apply CV]. intros n. rewrite coast_closed by easy. cbn. unfold pt, py; cbn. lra.
  - apply (EXT _ (fun n => vx pos + vx vel * ((1 - d ^ n) / (1 - d)))); [|apply CVa]. intros n. rewrite coast_closed by easy. reflexivity.
  - apply (EXT _ (fun n => vy pos + vy vel * ((1 - d ^ n) / (1 - d)))); [|apply CVa]. intros n. rewrite coast_closed by easy. reflexivity.
  - apply (EXT _ (fun n => s * (1 - d ^ n) / (1 - d))); [|now apply pow_lim]. intros n. now apply series_closed.
  - intros n. rewrite travel_R by easy. rewrite FT. do 2 eexists. do 2 (split; [reflexivity|]). unfold Vector2D_mul, V, pt, px, py. rnum. cbn. f_equal; field; lra.
Qed.
Example C86_nonvacuous : Rabs (94/100) < 1. Proof. rewrite Rabs_pos_eq; lra. Qed.

(** ** C87 *)
(** the speed after n cycles of decaying and adding the same acceleration *)
Fixpoint dashed (n : nat) (v a d : R) : R := match n with O => v | S n' => d * dashed n' v a d + a end.
Theorem C87_final_speed_R : forall power rate effort decay speed_max : R, decay <> 1 ->
  exists f, final_speed power rate effort decay = Ok f /\
    f = decay * f + Rabs power * rate * effort /\
    (Rabs decay < 1 -> forall v0, Un_cv (fun n => dashed n v0 (Rabs power * rate * effort) decay) f) /\
    (decay < 1 -> (can_over_speed_max power rate effort decay speed_max = true <-> f > speed_max)).
Proof.
  intros p r e d m Hd. unfold final_speed, can_over_speed_max. rnum. set (a := Rabs p * r * e). rewrite Rdiv_py_ok by lra. eexists. split; [reflexivity|]. split; [field; lra|]. split.
  - intros Hd1 v0 eps He. pose (K := Rabs (v0 - a / (1 - d)) + 1). assert (KP : 0 < K) by (unfold K; pose proof (Rabs_pos (v0 - a / (1 - d))); lra).
    destruct (pow_lt_1_zero d Hd1 (eps / K)) as [N HN]; [apply Rdiv_lt_0_compat; lra|]. exists N. intros n Hn. specialize (HN n Hn). unfold R_dist.
    assert (EQ : dashed n v0 a d - a / (1 - d) = (v0 - a / (1 - d)) * d ^ n). { clear - Hd. induction n as [|n IH]; cbn [dashed pow]; [ring|]. replace (d * dashed n v0 a d + a - a / (1 - d)) with (d * (dashed n v0 a d - a / (1 - d))) by (field; lra). rewrite IH. ring. }
    rewrite EQ, Rabs_mult. apply Rle_lt_trans with (K * Rabs (d ^ n)); [apply Rmult_le_compat_r; [apply Rabs_pos|unfold K; lra]|].
    apply Rlt_le_trans with (K * (eps / K)); [apply Rmult_lt_compat_l; lra|]. right. field. lra.
  - intros Hd1. rewrite Rlt_bool_iff. split; intros H.
    + apply Rlt_gt, Rmult_lt_reg_r with (1 - d); [lra|]. replace (a / (1 - d) * (1 - d)) with a by (field; lra). exact H.
    + apply Rmult_gt_compat_r with (r := 1 - d) in H; [|lra]. replace (a / (1 - d) * (1 - d)) with a in H by (field; lra). lra.
Qed.
Example C87_nonvacuous : (4/10 : R) <> 1 /\ Rabs (4/10) < 1. Proof. split; [lra|rewrite Rabs_pos_eq; lra]. Qed.

(** ** C88 *)
Theorem C88_dir_rate_R : forall d back side : R, exists r, dir_rate d back side = Ok r /\
  (Rabs d <= 90 -> exists t, 0 <= t <= 1 /\ t = Rabs d / 90 /\ r = (1 - t) * 1 + t * side) /\
  (90 <= Rabs d <= 180 -> exists t, 0 <= t <= 1 /\ t = (Rabs d - 90) / 90 /\ r = (1 - t) * side + t * back) /\
  (Rabs d <= 90 -> Rmin 1 side <= r <= Rmax 1 side) /\
  (90 <= Rabs d <= 180 -> Rmin side back <= r <= Rmax side back) /\
  dir_rate (- d) back side = Ok r.
Proof.
  intros d back side. unfold dir_rate. rnum. rewrite Rabs_Ropp.
  assert (CV : forall t x y, 0 <= t <= 1 -> Rmin x y <= (1 - t) * x + t * y <= Rmax x y).
  { intros t x y Ht. unfold Rmin, Rmax. destruct (Rle_dec x y); nra. }
  pose proof (Rabs_pos d). destruct (Rlt_bool_spec 90 (Rabs d)) as [L|L]; rewrite !Rdiv_py_ok by lra; eexists; (split; [reflexivity|]).
  - set (t := (Rabs d - 90) / 90). assert (TE : t = (Rabs d - 90) / 90) by easy. assert (ER : back - (back - side) * (1 - t) = (1 - t) * side + t * back) by ring.
    split; [intros; lra|]. split; [intros; exists t; split; [unfold t; lra|auto]|]. split; [intros; lra|]. split; [|easy].
    intros B. rewrite ER. apply CV. unfold t; lra.
  - set (t := Rabs d / 90). assert (ER : side + (1 - side) * (1 - t) = (1 - t) * 1 + t * side) by ring.
    split; [intros; exists t; split; [unfold t; lra|auto]|]. split; [|split; [|split; [|easy]]].
    + intros B. assert (Rabs d = 90) by lra. exists 0. split; [lra|]. split; [lra|]. unfold t. rewrite H0. lra.
    + intros B. rewrite ER. apply CV. unfold t; lra.
    + intros B. assert (T1 : t = 1) by (unfold t; lra). rewrite ER, T1. unfold Rmin, Rmax. destruct (Rle_dec side back); lra.
Qed.
Example C88_nonvacuous : dir_rate 0 (6/10) (4/10) = Ok 1 /\ dir_rate (-90) (6/10) (4/10) = Ok (4/10) /\ dir_rate 180 (6/10) (4/10) = Ok (6/10).
Proof.
  unfold dir_rate. rnum. rewrite Rabs_R0, (Rabs_pos_eq 180) by lra. replace (Rabs (-90)) with 90 by (unfold Rabs; destruct (Rcase_abs (-90)); lra).
  rewrite !Rlt_bool_false by lra. rewrite Rlt_bool_true by lra. rewrite !Rdiv_py_ok by lra. repeat split; f_equal; lra.
Qed.

(** ** C89 *)
Theorem C89_kick_rate_R : forall dist dir power ball player margin : R, margin > 0 -> power >= 0 ->
  exists r, kick_rate dist dir power ball player margin = Ok r /\
    (ball + player <= dist -> r <= power) /\
    (dist <= ball + player + margin -> Rabs dir <= 180 -> r >= power / 2) /\
    (dist = ball + player -> dir = 0 -> r = power) /\
    (forall dist' dir' r', dist <= dist' -> Rabs dir <= Rabs dir' -> kick_rate dist' dir' power ball player margin = Ok r' -> r' <= r).
Proof.
  intros dist dir pw b p m Hm Hp. unfold kick_rate. rnum. rewrite !Rdiv_py_ok by lra. eexists. split; [reflexivity|].
  assert (Q : forall x, 1/4 * (x - b - p) / m = (x - b - p) * / m / 4) by (intros; field; lra). rewrite Q. assert (MI : 0 < / m) by (apply Rinv_0_lt_compat; lra). pose proof (Rabs_pos dir).
  assert (SM : forall x, (x - b - p) * / m <= 1 <-> x <= b + p + m).
  { intros x. split; intros K; [apply Rmult_le_compat_r with (r := m) in K; [|lra]; rewrite Rmult_assoc, Rinv_l in K by lra; lra|]. apply Rmult_le_reg_r with m; [lra|]. rewrite Rmult_assoc, Rinv_l by lra. lra. }
  split; [|split; [|split]].
  - intros D. assert (0 <= (dist - b - p) * / m) by (apply Rmult_le_pos; lra). nra.
  - intros D A. apply SM in D. nra.
  - intros -> ->. rewrite Rabs_R0. replace (b + p - b - p) with 0 by ring. lra.
  - intros dist' dir' r' D A. rewrite !Rdiv_py_ok by lra. intros [= <-]. rewrite Q. assert ((dist - b - p) * / m <= (dist' - b - p) * / m) by (apply Rmult_le_compat_r; lra). nra.
Qed.
Theorem C89_margin_zero_raises_R : forall dist dir power ball player : R, kick_rate dist dir power ball player 0 = Raise ZeroDivisionError.
Proof. intros. unfold kick_rate. rnum. rewrite Rdiv_py_ok by lra. unfold Rdiv_py. rewrite Req_bool_true by lra. reflexivity. Qed.
Example C89_nonvacuous : (7/10 > 0) /\ (27/1000 >= 0) /\ (85/1000 + 3/10 <= 1/2). Proof. lra. Qed.
