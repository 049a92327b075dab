(** * P_Soccer2: properties C90-C96, C103, C104 over ideal reals *)
From Coq Require Import ZArith List Bool String Reals Lra Lia Psatz.
From Flocq Require Import Core.
From Verif Require Import Base Types NumR R_Tac Spec Spec2 Abs M_Angle M_Vector M_Soccer L_Angle L_Trig P_Angle P_Vector P_Soccer.
Import ListNotations.
Local Open Scope R_scope.

(** ** C90 *)
(** the sum of the first n terms of the geometric series a, a r, a r^2, ... *)
Definition geom_sum (a r : R) (n : nat) : R := Rsum (map (fun k => a * r ^ k) (seq 0 n)).
Lemma geom_closed a r n : r <> 1 -> geom_sum a r n = a * (1 - r ^ n) / (1 - r).
Proof. exact (series_closed a r n). Qed.
Theorem C90_first_term_R : forall (sum ratio : R) (n : nat), ratio <> 1 -> ratio ^ n <> 1 ->
  exists a, calc_first_term_geom_series sum ratio (Z.of_nat n) = Ok a /\ geom_sum a ratio n = sum.
Proof.
  intros s r n H1 Hn. unfold calc_first_term_geom_series. rnum. rewrite Rpowi_py_nat, Rdiv_py_ok by lra. eexists. split; [reflexivity|].
  rewrite geom_closed by easy. field. split; lra.
Qed.
Theorem C90_first_term_raises_R : forall (sum ratio : R) (n : nat), ratio ^ n = 1 ->
  calc_first_term_geom_series sum ratio (Z.of_nat n) = Raise ZeroDivisionError.
Proof. intros s r n Hn. unfold calc_first_term_geom_series. rnum. rewrite Rpowi_py_nat, Hn. unfold Rdiv_py. now rewrite Req_bool_true by lra. Qed.
Lemma server_eps : (SERVER_EPS : R) = 1/10000000000. Proof. unfold SERVER_EPS. rnum. lra. Qed.
Theorem C90_length_R : forall (a r : R) (n : nat), a > 1/10000000000 -> r > 1/10000000000 -> r <> 1 -> geom_sum a r n > 1/10000000000 ->
  (r ^ n > 1/10000000000 -> calc_length_geom_series a (geom_sum a r n) r = Ok (INR n)) /\
  (* a decayed tail below 1e-10 gives -1 instead of the length *)
  (r ^ n <= 1/10000000000 -> calc_length_geom_series a (geom_sum a r n) r = Ok (-1)).
Proof.
  intros a r n Ha Hr H1 Hs. unfold calc_length_geom_series. rewrite server_eps. rnum.
  rewrite !Rle_bool_false by lra. rewrite Rlt_bool_false by lra. cbn [orb]. rewrite Rdiv_py_ok by lra.
  assert (E : 1 + geom_sum a r n * (r - 1) / a = r ^ n) by (rewrite geom_closed by easy; field; split; lra). rewrite E. split; intros Hp.
  - rewrite Rle_bool_false by lra. unfold Rlog_py. rewrite !Rle_bool_false by lra. rewrite Rdiv_py_ok.
    + f_equal. rewrite ln_pow by lra. field. intros K. apply H1. rewrite <- (exp_ln r), K by lra. apply exp_0.
    + intros K. apply H1. rewrite <- (exp_ln r), K by lra. apply exp_0.
  - rewrite Rle_bool_true by lra. reflexivity.
Qed.
Theorem C90_length_guards_R : forall a s r : R,
  (a <= 1/10000000000 \/ s < 0 \/ r <= 1/10000000000 -> calc_length_geom_series a s r = Ok (-1)) /\
  (a > 1/10000000000 -> r > 1/10000000000 -> 0 <= s <= 1/10000000000 -> calc_length_geom_series a s r = Ok 0) /\
  (* a constant series is not handled *)
  (a > 1/10000000000 -> s > 1/10000000000 -> r = 1 -> calc_length_geom_series a s r = Raise ZeroDivisionError) /\
  (* nothing else raises *)
  (r <> 1 -> exists x, calc_length_geom_series a s r = Ok x).
Proof.
  intros a s r. unfold calc_length_geom_series. rewrite server_eps. rnum. split; [|split; [|split]].
  - intros [H|[H|H]].
    + rewrite Rle_bool_true by lra. reflexivity.
    + rewrite (Rlt_bool_true s) by lra. now rewrite orb_true_r.
    + rewrite (Rle_bool_true r) by lra. now rewrite orb_true_r.
  - intros A B C. rewrite (Rle_bool_false a), (Rle_bool_false r), (Rlt_bool_false s) by lra. cbn [orb]. now rewrite Rle_bool_true by lra.
  - intros A B ->. rewrite !Rle_bool_false by lra. rewrite Rlt_bool_false by lra. cbn [orb]. rewrite Rdiv_py_ok by lra. replace (1 + s * (1 - 1) / a) with 1 by (field; lra).
    rewrite Rle_bool_false by lra. unfold Rlog_py. rewrite Rle_bool_false by lra. rewrite ln_1. unfold Rdiv_py. now rewrite Req_bool_true by lra.
  - intros H1. destruct (Rle_bool_spec a (1/10000000000)); cbn [orb]; [eauto|]. destruct (Rlt_bool_spec s 0); cbn [orb]; [eauto|]. destruct (Rle_bool_spec r (1/10000000000)); [eauto|].
    destruct (Rle_bool_spec s (1/10000000000)); [eauto|]. rewrite Rdiv_py_ok by lra. destruct (Rle_bool_spec (1 + s * (r - 1) / a) (1/10000000000)); [eauto|].
    unfold Rlog_py. rewrite !Rle_bool_false by lra. rewrite Rdiv_py_ok; [eauto|]. intros K. apply H1. rewrite <- (exp_ln r), K by lra. apply exp_0.
Qed.
Example C90_nonvacuous : geom_sum 3 (1/2) 2 = 9/2 /\ (1/2) ^ 2 > 1/10000000000 /\ (1/2) ^ 34 <= 1/10000000000.
Proof. split; [unfold geom_sum, Rsum; cbn; lra|]. split; [lra|]. cbn. lra. Qed.

(** ** C91 *)
Theorem C91_clamp_R : forall low x high : R,
  min_max low x high = bound low x high /\
  (low <= high -> low <= min_max low x high <= high /\
     (low <= x <= high -> min_max low x high = x) /\ (x < low -> min_max low x high = low) /\ (x > high -> min_max low x high = high)) /\
  (low > high -> min_max low x high = high).
Proof. intros low x high. unfold min_max, bound. rnum. unfold nmin, nmax. rnum. split; [easy|]. split; [intros Hl; split; [split|split; [|split]]; intros|intros Hl]; destruct (Rlt_bool_spec low x); rcases; lra. Qed.
Example C91_nonvacuous : min_max 0 5 3 = 3 /\ min_max 0 2 3 = 2 /\ min_max 0 (-1) 3 = 0.
Proof. unfold min_max, nmin, nmax. rnum. split; [|split].
  - rewrite (Rlt_bool_true 0 5), (Rlt_bool_true 3 5) by lra. easy.
  - rewrite (Rlt_bool_true 0 2), (Rlt_bool_false 3 2) by lra. easy.
  - rewrite (Rlt_bool_false 0 (-1)), (Rlt_bool_false 3 0) by lra. easy.
Qed.

(** ** C92 *)
Lemma f_range_det (a s t : R) l l' : f_range_run a s t l -> f_range_run a s t l' -> l = l'.
Proof.
  intros H. revert l'. induction H as [a s t E|a s t v a' l E H IH]; intros l' H'; inversion H'; subst; try congruence.
  rewrite E in H0. injection H0 as <- <-. f_equal. auto.
Qed.
Lemma next_R (a s t : R) : f_range_next a s t = if (Rlt_bool 0 t && Rle_bool s a) || (Rlt_bool t 0 && Rle_bool a s) then None else Some (a, a + t).
Proof. unfold f_range_next. rnum. destruct (Rlt_bool 0 t && Rle_bool s a); cbn [orb]; [easy|]. destruct (Rlt_bool t 0 && Rle_bool a s); easy. Qed.
(** [n] steps of size [t] are needed to get from [a] to [s] or past it *)
Lemma run_up n : forall a s t : R, t > 0 -> (forall k, (k < n)%nat -> a + INR k * t < s) -> a + INR n * t >= s -> f_range_run a s t (map (fun k => a + INR k * t) (seq 0 n)).
Proof.
  induction n as [|n IH]; intros a s t Ht Hk Hn.
  - constructor. rewrite next_R. rewrite Rlt_bool_true by lra. rewrite Rle_bool_true by (cbn in Hn; lra). reflexivity.
  - cbn [seq map]. replace (a + INR 0 * t) with a by (cbn; ring). apply frr_yield with (a + t).
    + rewrite next_R. pose proof (Hk 0%nat ltac:(lia)) as H0. cbn in H0. rewrite (Rle_bool_false s a), (Rlt_bool_false t 0) by lra. rewrite andb_false_r. reflexivity.
    + rewrite <- seq_shift, map_map. erewrite map_ext; [apply IH; [easy| |]|].
      * intros k Hkn. pose proof (Hk (S k) ltac:(lia)) as K. rewrite S_INR in K. lra.
      * rewrite S_INR in Hn. lra.
      * intros k. cbn beta. rewrite S_INR. lra.
Qed.
Lemma run_down n : forall a s t : R, t < 0 -> (forall k, (k < n)%nat -> a + INR k * t > s) -> a + INR n * t <= s -> f_range_run a s t (map (fun k => a + INR k * t) (seq 0 n)).
Proof.
  induction n as [|n IH]; intros a s t Ht Hk Hn.
  - constructor. rewrite next_R. rewrite (Rlt_bool_true t 0) by lra. rewrite (Rle_bool_true a s) by (cbn in Hn; lra). now rewrite orb_true_r.
  - cbn [seq map]. replace (a + INR 0 * t) with a by (cbn; ring). apply frr_yield with (a + t).
    + rewrite next_R. pose proof (Hk 0%nat ltac:(lia)) as H0. cbn in H0. rewrite (Rle_bool_false a s), (Rlt_bool_false 0 t) by lra. now rewrite andb_false_r.
    + rewrite <- seq_shift, map_map. erewrite map_ext; [apply IH; [easy| |]|].
      * intros k Hkn. pose proof (Hk (S k) ltac:(lia)) as K. rewrite S_INR in K. lra.
      * rewrite S_INR in Hn. lra.
      * intros k. cbn beta. rewrite S_INR. lra.
Qed.
Lemma steps_exist (a s t : R) : t > 0 -> exists n, (forall k, (k < n)%nat -> a + INR k * t < s) /\ a + INR n * t >= s.
Proof.
  intros Ht. destruct (Rle_lt_dec s a) as [L|L]; [exists 0%nat; split; [intros; lia|cbn; lra]|].
  assert (exists N : nat, a + INR N * t >= s) as [N HN].
  { assert (exists N : nat, (s - a) / t < INR N) as [N HN].
    { exists (Z.to_nat (up ((s - a) / t))). destruct (archimed ((s - a) / t)) as [U _]. rewrite INR_IZR_INZ. eapply Rlt_le_trans; [exact U|]. apply IZR_le. lia. }
    exists N. assert ((s - a) / t * t < INR N * t) by (apply Rmult_lt_compat_r; lra). unfold Rdiv in H. rewrite Rmult_assoc, Rinv_l in H by lra. lra. }
  induction N as [|N IH]; [exists 0%nat; split; [intros; lia|easy]|].
  destruct (Rlt_le_dec (a + INR N * t) s) as [H|H]; [|apply IH; lra].
  exists (S N). split; [|easy]. intros k Hk. apply Rle_lt_trans with (a + INR N * t); [|easy]. apply Rplus_le_compat_l, Rmult_le_compat_r; [lra|]. apply le_INR. lia.
Qed.
Theorem C92_f_range_R : forall start stop step : R,
  (step > 0 -> exists n, (forall l, f_range_run start stop step l <-> l = map (fun k => start + INR k * step) (seq 0 n)) /\
     (forall k, (k < n)%nat -> start + INR k * step < stop) /\ start + INR n * step >= stop) /\
  (step < 0 -> exists n, (forall l, f_range_run start stop step l <-> l = map (fun k => start + INR k * step) (seq 0 n)) /\
     (forall k, (k < n)%nat -> start + INR k * step > stop) /\ start + INR n * step <= stop) /\
  (step = 0 -> (forall l, ~ f_range_run start stop step l) /\ forall n, f_range_take n start stop step = repeat start n).
Proof.
  intros a s t. split; [|split].
  - intros Ht. destruct (steps_exist a s t Ht) as (n & H1 & H2). exists n. split; [|easy]. pose proof (run_up n a s t Ht H1 H2) as R. intros l. split; [intros Q; eapply f_range_det; eauto|intros ->; easy].
  - intros Ht. destruct (steps_exist (- a) (- s) (- t) ltac:(lra)) as (n & H1 & H2). exists n.
    assert (G1 : forall k, (k < n)%nat -> a + INR k * t > s) by (intros k Hk; specialize (H1 k Hk); lra). assert (G2 : a + INR n * t <= s) by lra.
    split; [|easy]. pose proof (run_down n a s t Ht G1 G2) as R. intros l. split; [intros Q; eapply f_range_det; eauto|intros ->; easy].
  - intros ->. assert (NX : forall x : R, f_range_next x s 0 = Some (x, x)). { intros x. rewrite next_R. rewrite !Rlt_bool_false by lra. cbn. now rewrite Rplus_0_r. }
    split.
    + intros l H. remember 0 as t eqn:Et. induction H as [a s t E|a s t v a' l E H IH]; subst t; rewrite NX in E; [discriminate|]. injection E as <- <-. auto.
    + induction n as [|n IH]; cbn [f_range_take repeat]; [easy|]. now rewrite NX, IH.
Qed.
Theorem C92_defaults_R : forall x y : R, f_range_args x None None = (0, x, 1) /\ f_range_args x (Some y) None = (x, y, 1).
Proof. intros x y. unfold f_range_args. rnum. split; [|easy]. now rewrite Rplus_0_r. Qed.
Example C92_nonvacuous : f_range_run 0 1 (2/5) (map (fun k => 0 + INR k * (2/5)) (seq 0 3)).
Proof. apply run_up; [lra| |cbn; lra]. intros k Hk. assert (INR k <= 2) by (apply (le_INR k 2); lia). lra. Qed.

(** ** C93 *)
(** rounding to the nearest integer, halves away from zero *)
Definition round_away (x : R) (n : Z) : Prop :=
  Rabs (IZR n - x) <= 1/2 /\ (Rabs (IZR n - x) = 1/2 -> Rabs (IZR n) > Rabs x).
Lemma round_away_unique x n m : round_away x n -> round_away x m -> n = m.
Proof.
  intros [A1 A2] [B1 B2]. destruct (Z.eq_dec n m) as [E|E]; [easy|]. exfalso.
  assert (H : (n <= m - 1)%Z \/ (m <= n - 1)%Z) by lia.
  assert (G : forall n m, (n <= m - 1)%Z -> Rabs (IZR n - x) <= 1/2 -> Rabs (IZR m - x) <= 1/2 -> IZR n - x = - (1/2) /\ IZR m - x = 1/2 /\ IZR m = IZR n + 1).
  { clear. intros n m H A B. apply IZR_le in H. rewrite minus_IZR in H. unfold Rabs in A, B. destruct (Rcase_abs (IZR n - x)), (Rcase_abs (IZR m - x)); lra. }
  assert (HH : forall k, Rabs (IZR k - x) = 1/2 -> Rabs (IZR k) > Rabs x -> (x > 0 -> IZR k > x) /\ (x < 0 -> IZR k < x) /\ x <> 0).
  { clear. intros k A B.
    assert (NN : IZR k <= -1 \/ IZR k = 0 \/ IZR k >= 1). { assert (Q : (k <= -1 \/ k = 0 \/ 1 <= k)%Z) by lia. destruct Q as [Q|[Q|Q]]; [left; now apply IZR_le|right; left; now subst|right; right; apply Rle_ge; now apply IZR_le]. }
    unfold Rabs in *. destruct NN as [NN|[NN|NN]], (Rcase_abs (IZR k - x)), (Rcase_abs (IZR k)), (Rcase_abs x); (split; [intros; lra|split; intros; lra]). }
  destruct H as [H|H].
  - destruct (G _ _ H A1 B1) as (C1 & C2 & C3). assert (A3 : Rabs (IZR n - x) = 1/2) by (rewrite C1, Rabs_Ropp, Rabs_pos_eq; lra). assert (B3 : Rabs (IZR m - x) = 1/2) by (rewrite C2, Rabs_pos_eq; lra).
    destruct (HH n A3 (A2 A3)) as (D1 & D2 & D3), (HH m B3 (B2 B3)) as (F1 & F2 & F3). destruct (Rtotal_order x 0) as [K|[K|K]]; [|easy|]; [specialize (F2 K)|specialize (D1 K)]; lra.
  - destruct (G _ _ H B1 A1) as (C1 & C2 & C3). assert (B3 : Rabs (IZR m - x) = 1/2) by (rewrite C1, Rabs_Ropp, Rabs_pos_eq; lra). assert (A3 : Rabs (IZR n - x) = 1/2) by (rewrite C2, Rabs_pos_eq; lra).
    destruct (HH n A3 (A2 A3)) as (D1 & D2 & D3), (HH m B3 (B2 B3)) as (F1 & F2 & F3). destruct (Rtotal_order x 0) as [K|[K|K]]; [|easy|]; [specialize (D2 K)|specialize (F1 K)]; lra.
Qed.
Lemma trunc_bounds x : (0 <= x -> IZR (Ztrunc x) <= x < IZR (Ztrunc x) + 1 /\ 0 <= IZR (Ztrunc x)) /\ (x < 0 -> IZR (Ztrunc x) - 1 < x <= IZR (Ztrunc x) /\ IZR (Ztrunc x) <= 0).
Proof.
  split; intros H.
  - rewrite Ztrunc_floor by easy. split; [split; [apply Zfloor_lb|apply Zfloor_ub]|]. apply IZR_le. apply Zfloor_lub. exact H.
  - rewrite Ztrunc_ceil by lra. split.
    + split; [|apply Zceil_ub]. unfold Zceil. rewrite opp_IZR. pose proof (Zfloor_ub (- x)). lra.
    + apply IZR_le. apply Zceil_glb. lra.
Qed.
Theorem C93_r_int_R : forall x : R, exists n, r_int x = Ok n /\ round_away x n.
Proof.
  intros x. unfold r_int. rnum. eexists. split; [reflexivity|]. rewrite plus_IZR, minus_IZR. destruct (trunc_bounds x) as [P N]. set (k := Ztrunc x) in *.
  destruct (Rle_lt_dec 0 x) as [Hx|Hx].
  - destruct (P Hx) as [B1 B2]. replace (Rabs (IZR k - x)) with (x - IZR k) by (rewrite Rabs_left1; lra). replace (Rabs (IZR k - 1 - x)) with (x - IZR k + 1) by (rewrite Rabs_left1; lra).
    replace (Rabs (IZR k + 1 - x)) with (IZR k + 1 - x) by (rewrite Rabs_pos_eq; lra). rewrite (Rlt_bool_true (x - IZR k) (x - IZR k + 1)) by lra. cbn [andb].
    unfold round_away. destruct (Rlt_bool_spec (x - IZR k) (IZR k + 1 - x)).
    + rewrite Rabs_left1 by lra. split; lra.
    + rewrite Rlt_bool_false by lra. rewrite plus_IZR. rewrite (Rabs_pos_eq (IZR k + 1 - x)) by lra. split; [lra|]. intros E. rewrite !Rabs_pos_eq by lra. lra.
  - destruct (N Hx) as [B1 B2]. replace (Rabs (IZR k - x)) with (IZR k - x) by (rewrite Rabs_pos_eq; lra). replace (Rabs (IZR k + 1 - x)) with (IZR k + 1 - x) by (rewrite Rabs_pos_eq; lra).
    replace (Rabs (IZR k - 1 - x)) with (1 - (IZR k - x)) by (rewrite Rabs_left1; lra). rewrite (Rlt_bool_true (IZR k - x) (IZR k + 1 - x)) by lra. rewrite andb_true_r.
    unfold round_away. destruct (Rlt_bool_spec (IZR k - x) (1 - (IZR k - x))).
    + rewrite Rabs_pos_eq by lra. split; lra.
    + rewrite Rlt_bool_true by lra. rewrite minus_IZR. rewrite (Rabs_left1 (IZR k - 1 - x)) by lra. split; [lra|]. intros E. rewrite !Rabs_left1 by lra. lra.
Qed.
(** halves go away from zero - not to the nearest even integer, which is the
    current rounding mode of the documentation *)
Theorem C93_ties_R : forall k : Z, (0 <= k)%Z -> r_int (IZR k + 1/2) = Ok (k + 1)%Z /\ r_int (- (IZR k + 1/2)) = Ok (- (k + 1))%Z.
Proof.
  intros k Hk. apply IZR_le in Hk. split.
  - destruct (C93_r_int_R (IZR k + 1/2)) as (n & E & H). rewrite E. f_equal. apply (round_away_unique _ _ _ H). split; rewrite plus_IZR; [rewrite Rabs_pos_eq; lra|]. intros _. rewrite !Rabs_pos_eq; lra.
  - destruct (C93_r_int_R (- (IZR k + 1/2))) as (n & E & H). rewrite E. f_equal. apply (round_away_unique _ _ _ H). split; rewrite opp_IZR, plus_IZR; [rewrite Rabs_left1; lra|]. intros _. rewrite !Rabs_Ropp, !Rabs_pos_eq; lra.
Qed.
Example C93_nonvacuous : round_away (5/2) 3. Proof. split; [rewrite Rabs_pos_eq; lra|]. intros _. rewrite !Rabs_pos_eq; lra. Qed.

(** ** C94 *)
Lemma r_int_eq x n : round_away x n -> r_int x = Ok n.
Proof. intros H. destruct (C93_r_int_R x) as (m & E & H'). rewrite E. f_equal. now apply (round_away_unique x). Qed.
Lemma r_int_Z (k : Z) : r_int (IZR k) = Ok k.
Proof. apply r_int_eq. split; replace (IZR k - IZR k) with 0 by ring; rewrite Rabs_R0; lra. Qed.
Lemma ndiv_R (x y : R) : y <> 0 -> ndiv x y = Ok (x / y). Proof. exact (Rdiv_py_ok x y). Qed.
Lemma quantize_R (v q : R) : q <> 0 -> quantize v q = (k <- r_int (v / q) ;; Ok (IZR k * q))%py.
Proof. intros Hq. unfold quantize. rewrite ndiv_R by easy. reflexivity. Qed.
Lemma half_R : @nlit R NumR 1 2 = 1/2. Proof. rnum. lra. Qed.
Lemma unq_min_R (v q : R) : q <> 0 -> unquantize_min v q = (k <- r_int (v / q) ;; Ok ((IZR k - 1/2) * q))%py.
Proof. intros Hq. unfold unquantize_min. rewrite ndiv_R, half_R by easy. reflexivity. Qed.
Lemma unq_max_R (v q : R) : q <> 0 -> unquantize_max v q = (k <- r_int (v / q) ;; Ok ((IZR k + 1/2) * q))%py.
Proof. intros Hq. unfold unquantize_max. rewrite ndiv_R, half_R by easy. reflexivity. Qed.
Theorem C94_quantize_R : forall value qstep : R,
  (qstep <> 0 -> exists k : Z, quantize value qstep = Ok (IZR k * qstep) /\ Rabs (IZR k * qstep - value) <= Rabs qstep / 2 /\
     quantize (IZR k * qstep) qstep = Ok (IZR k * qstep)) /\
  (qstep = 0 -> quantize value qstep = Raise ZeroDivisionError).
Proof.
  intros v q. split.
  - intros Hq. rewrite quantize_R by easy. destruct (C93_r_int_R (v / q)) as (k & E & H). exists k. rewrite E. split; [easy|]. split.
    + replace (IZR k * q - v) with ((IZR k - v / q) * q) by (field; easy). rewrite Rabs_mult. destruct H as [H _]. apply (Rmult_le_compat_r (Rabs q)) in H; [|apply Rabs_pos]. lra.
    + rewrite quantize_R by easy. replace (IZR k * q / q) with (IZR k) by (field; easy). now rewrite r_int_Z.
  - intros ->. unfold quantize. rnum. unfold Rdiv_py. now rewrite Req_bool_true.
Qed.
Example C94_nonvacuous : quantize (7/10) (1/2) = Ok (1 * (1/2)).
Proof. rewrite quantize_R by lra. rewrite (r_int_eq _ 1); [reflexivity|]. split; [rewrite Rabs_left1; lra|]. intros K. rewrite Rabs_left1 in K; lra. Qed.

(** ** C95 *)
Theorem C95_unquantize_R : forall value qstep d : R, qstep > 0 -> quantize value qstep = Ok d ->
  exists lo hi, unquantize_min d qstep = Ok lo /\ unquantize_max d qstep = Ok hi /\ lo <= value <= hi /\ hi - lo = qstep /\
    (* and every value strictly between them quantises to d *)
    forall v, lo < v < hi -> quantize v qstep = Ok d.
Proof.
  intros v q d Hq. rewrite quantize_R by lra. destruct (C93_r_int_R (v / q)) as (k & E & H). rewrite E. intros [= <-]. rewrite unq_min_R, unq_max_R by lra.
  replace (IZR k * q / q) with (IZR k) by (field; lra). rewrite r_int_Z. do 2 eexists. do 2 (split; [reflexivity|]).
  assert (V : v = v / q * q) by (field; lra). destruct H as [H _]. assert (B : IZR k - 1/2 <= v / q <= IZR k + 1/2) by (unfold Rabs in H; destruct (Rcase_abs _); lra).
  split; [|split].
  - rewrite V. split; apply Rmult_le_compat_r; lra.
  - lra.
  - intros w Hw. rewrite quantize_R by lra. assert (W : w = w / q * q) by (field; lra). rewrite W in Hw. destruct Hw as [W1 W2]. apply Rmult_lt_reg_r in W1; [|lra]. apply Rmult_lt_reg_r in W2; [|lra].
    rewrite (r_int_eq _ k); [easy|]. assert (RB : Rabs (IZR k - w / q) < 1/2) by (unfold Rabs; destruct (Rcase_abs _); lra). split; [lra|]. intros; lra.
Qed.
Example C95_nonvacuous : 1/2 > 0 /\ quantize (7/10) (1/2) = Ok (1 * (1/2)). Proof. split; [lra|apply C94_nonvacuous]. Qed.

(** ** C96 *)
Theorem C96_wind_R : forall speed weight force dir wweight rand err,
  (weight * wweight <> 0 -> wind_effect speed weight force dir wweight rand err = Ok (mkVec 0 0 true, match err with Some e => Some (mkVec 0 0 (v_valid e)) | None => None end)) /\
  (weight * wweight = 0 -> wind_effect speed weight force dir wweight rand err = Raise ZeroDivisionError).
Proof.
  intros sp w f d ww r err. unfold wind_effect. rewrite from_polar_R. cbn [bind V vx vy]. split; intros Hw.
  - assert (D : forall x, x = 0 -> ndiv x (w * ww)%num = Ok 0). { intros x ->. rnum. rewrite Rdiv_py_ok by easy. f_equal. unfold Rdiv. apply Rmult_0_l. }
    rewrite !D by (rnum; ring). destruct err; reflexivity.
  - assert (D : forall x, ndiv x (w * ww)%num = Raise ZeroDivisionError). { intros x. rnum. rewrite Hw. unfold Rdiv_py. now rewrite Req_bool_true. }
    destruct err; now rewrite !D.
Qed.
Example C96_nonvacuous : 5 * 2 <> 0 /\ 5 * 0 = 0. Proof. split; lra. Qed.

(** ** C103 *)
Lemma quantize_inv (v q d : R) : q > 0 -> quantize v q = Ok d -> exists k : Z, d = IZR k * q /\ (IZR k - 1/2) * q <= v <= (IZR k + 1/2) * q.
Proof.
  intros Hq. rewrite quantize_R by lra. destruct (C93_r_int_R (v / q)) as (k & E & H). rewrite E. intros [= <-]. exists k. split; [easy|].
  assert (V : v = v / q * q) by (field; lra). destruct H as [H _]. assert (B : IZR k - 1/2 <= v / q <= IZR k + 1/2) by (unfold Rabs in H; destruct (Rcase_abs _); lra).
  rewrite V. split; apply Rmult_le_compat_r; lra.
Qed.
Lemma quantize_ok (v q : R) : q > 0 -> exists d, quantize v q = Ok d.
Proof. intros Hq. rewrite quantize_R by lra. destruct (C93_r_int_R (v / q)) as (k & E & H). rewrite E. eexists. reflexivity. Qed.
Lemma round_away_mono x y n m : x <= y -> round_away x n -> round_away y m -> (n <= m)%Z.
Proof.
  intros Hxy Hn Hm. destruct (Z_le_gt_dec n m) as [L|G]; [easy|]. exfalso. assert (H : (m + 1 <= n)%Z) by lia. apply IZR_le in H. rewrite plus_IZR in H.
  assert (E : x = y). { destruct Hn as [A _], Hm as [B _]. unfold Rabs in A, B. destruct (Rcase_abs (IZR n - x)), (Rcase_abs (IZR m - y)); lra. }
  subst y. pose proof (round_away_unique x n m Hn Hm). lia.
Qed.
Lemma unq_R (d q : R) : q > 0 -> exists k, round_away (d / q) k /\ unquantize_min d q = Ok ((IZR k - 1/2) * q) /\ unquantize_max d q = Ok ((IZR k + 1/2) * q).
Proof. intros Hq. rewrite unq_min_R, unq_max_R by lra. destruct (C93_r_int_R (d / q)) as (k & E & H). exists k. rewrite E. repeat split; apply H. Qed.
Lemma unq_mult (k : Z) (q : R) : q > 0 -> unquantize_min (IZR k * q) q = Ok ((IZR k - 1/2) * q) /\ unquantize_max (IZR k * q) q = Ok ((IZR k + 1/2) * q).
Proof. intros Hq. rewrite unq_min_R, unq_max_R by lra. replace (IZR k * q / q) with (IZR k) by (field; lra). now rewrite r_int_Z. Qed.
Lemma tenth_R : @nlit R NumR 1 10 = 1/10. Proof. rnum. lra. Qed.
Lemma qdist_R (d q : R) : quantize_dist d q = (lg <- Rlog_py (d + 1/10000000000) ;; k <- quantize lg q ;; quantize (exp k) (1/10))%py.
Proof. unfold quantize_dist. rewrite server_eps, tenth_R. reflexivity. Qed.
Lemma uerr_R (s q : R) : unquantize_error s q = (m0 <- unquantize_min s (1/10) ;; lm <- Rlog_py m0 ;; um <- unquantize_min lm q ;;
  x0 <- unquantize_max s (1/10) ;; lx <- Rlog_py x0 ;; ux <- unquantize_max lx q ;; Ok (Rabs ((exp ux - 1/10000000000) - (exp um - 1/10000000000))))%py.
Proof. unfold unquantize_error. rewrite server_eps, tenth_R. reflexivity. Qed.
(** The observed distance: at least two rounds of rounding; every true distance
    giving the observation lies in one interval, and [unquantize_error] is the
    length of that interval. *)
Theorem C103_dist_error_R : forall see q : R, q > 0 -> (exists d, quantize_dist d q = Ok see) ->
  (see >= 1/10 -> exists lo hi, unquantize_error see q = Ok (hi - lo) /\ lo <= hi /\ forall d, quantize_dist d q = Ok see -> lo <= d <= hi) /\
  (see < 1/10 -> see = 0 /\ unquantize_error see q = Raise ValueError).
Proof.
  intros see q Hq [d0 Hd0].
  assert (INV : forall d, quantize_dist d q = Ok see -> exists k m : Z, d + 1/10000000000 > 0 /\ (IZR k - 1/2) * q <= ln (d + 1/10000000000) <= (IZR k + 1/2) * q /\
    see = IZR m * (1/10) /\ (IZR m - 1/2) * (1/10) <= exp (IZR k * q) <= (IZR m + 1/2) * (1/10)).
  { intros d. rewrite qdist_R. unfold Rlog_py. destruct (Rle_bool_spec (d + 1/10000000000) 0) as [C|C]; [discriminate|].
    cbn [bind]. destruct (quantize_ok (ln (d + 1/10000000000)) q Hq) as [l El]. rewrite El. cbn [bind]. destruct (quantize_inv _ _ _ Hq El) as (k & -> & Bk).
    intros E. destruct (quantize_inv _ (1/10) _ ltac:(lra) E) as (m & Em & Bm). exists k, m. split; [lra|split; [exact Bk|split; [exact Em|exact Bm]]]. }
  destruct (INV _ Hd0) as (k0 & m & D0 & B0 & Es & Bm0).
  assert (Hm0 : 0 < IZR m + 1/2) by (pose proof (exp_pos (IZR k0 * q)); lra).
  assert (Hmz : (0 <= m)%Z). { apply le_IZR. assert (-1 < m)%Z by (apply lt_IZR; lra). assert (0 <= m)%Z by lia. now apply IZR_le. }
  destruct (unq_mult m (1/10) ltac:(lra)) as [U1 U2]. rewrite <- Es in U1, U2.
  split.
  - intros Hs. assert (M1 : (1 <= m)%Z). { assert (0 < m)%Z by (apply lt_IZR; lra). lia. } apply IZR_le in M1.
    rewrite uerr_R, U1, U2. cbn [bind]. unfold Rlog_py. rewrite !Rle_bool_false by lra. cbn [bind].
    set (l1 := ln ((IZR m - 1/2) * (1/10))). set (l2 := ln ((IZR m + 1/2) * (1/10))).
    destruct (unq_R l1 q Hq) as (k1 & R1 & E1 & _). destruct (unq_R l2 q Hq) as (k2 & R2 & _ & E2). rewrite E1. cbn [bind]. rewrite E2. cbn [bind].
    exists (exp ((IZR k1 - 1/2) * q) - 1/10000000000), (exp ((IZR k2 + 1/2) * q) - 1/10000000000).
    assert (BD : forall d, quantize_dist d q = Ok see -> exp ((IZR k1 - 1/2) * q) - 1/10000000000 <= d <= exp ((IZR k2 + 1/2) * q) - 1/10000000000).
    { intros d Hd. destruct (INV _ Hd) as (k & m' & D & B & Es' & Bm). assert (m' = m) by (apply eq_IZR; lra). subst m'.
      assert (RK : round_away (IZR k * q / q) k). { replace (IZR k * q / q) with (IZR k) by (field; lra). split; replace (IZR k - IZR k) with 0 by ring; rewrite Rabs_R0; lra. }
      assert (L1 : l1 <= IZR k * q). { unfold l1. rewrite <- (ln_exp (IZR k * q)). destruct (Rle_lt_or_eq_dec _ _ (proj1 Bm)) as [H|H]; [left; apply ln_increasing; lra|right; now rewrite H]. }
      assert (L2 : IZR k * q <= l2). { unfold l2. rewrite <- (ln_exp (IZR k * q)) at 1. destruct (Rle_lt_or_eq_dec _ _ (proj2 Bm)) as [H|H]; [left; apply ln_increasing; [apply exp_pos|lra]|right; now rewrite H]. }
      assert (K1 : (k1 <= k)%Z). { eapply round_away_mono; [|exact R1|exact RK]. apply Rmult_le_compat_r; [left; now apply Rinv_0_lt_compat|easy]. }
      assert (K2 : (k <= k2)%Z). { eapply round_away_mono; [|exact RK|exact R2]. apply Rmult_le_compat_r; [left; now apply Rinv_0_lt_compat|easy]. }
      apply IZR_le in K1. apply IZR_le in K2.
      assert (ED : d + 1/10000000000 = exp (ln (d + 1/10000000000))) by (now rewrite exp_ln by lra).
      assert (EM : forall x y, x <= y -> exp x <= exp y). { intros x y [H|H]; [left; now apply exp_increasing|right; now rewrite H]. }
      split.
      - assert (exp ((IZR k1 - 1/2) * q) <= exp (ln (d + 1/10000000000))). { apply EM. apply Rle_trans with ((IZR k - 1/2) * q); [|lra]. apply Rmult_le_compat_r; lra. } lra.
      - assert (exp (ln (d + 1/10000000000)) <= exp ((IZR k2 + 1/2) * q)). { apply EM. apply Rle_trans with ((IZR k + 1/2) * q); [lra|]. apply Rmult_le_compat_r; lra. } lra. }
    pose proof (BD _ Hd0) as B. split; [|split; [lra|exact BD]]. f_equal. rewrite Rabs_pos_eq; lra.
  - intros Hs. assert (M0 : m = 0%Z). { assert (m < 1)%Z by (apply lt_IZR; lra). lia. } subst m. split; [lra|].
    rewrite uerr_R, U1. cbn [bind]. unfold Rlog_py. rewrite Rle_bool_true by lra. reflexivity.
Qed.
(** two distances that look the same differ by at most the reported error *)
Theorem C103_same_seen_R : forall see q d d' err : R, q > 0 -> quantize_dist d q = Ok see -> quantize_dist d' q = Ok see -> unquantize_error see q = Ok err -> Rabs (d - d') <= err.
Proof.
  intros see q d d' err Hq H H' He. destruct (C103_dist_error_R see q Hq (ex_intro _ d H)) as [A B]. destruct (Rlt_le_dec see (1/10)) as [L|L].
  - destruct (B L) as [_ B']. congruence.
  - destruct (A ltac:(lra)) as (lo & hi & E & _ & BD). rewrite E in He. injection He as <-. pose proof (BD _ H). pose proof (BD _ H'). unfold Rabs. destruct (Rcase_abs _); lra.
Qed.
Theorem C103_domain_R : forall d q : R, (d <= - (1/10000000000) -> quantize_dist d q = Raise ValueError) /\ (d > - (1/10000000000) -> q > 0 -> exists see, quantize_dist d q = Ok see /\ see >= 0).
Proof.
  intros d q. rewrite qdist_R. unfold Rlog_py. split.
  - intros H. now rewrite Rle_bool_true by lra.
  - intros H Hq. rewrite Rle_bool_false by lra. cbn [bind]. destruct (quantize_ok (ln (d + 1/10000000000)) q Hq) as [l El]. rewrite El. cbn [bind].
    destruct (quantize_ok (exp l) (1/10) ltac:(lra)) as [e Ee]. rewrite Ee. exists e. split; [easy|]. destruct (quantize_inv _ (1/10) _ ltac:(lra) Ee) as (m & -> & Bm).
    pose proof (exp_pos l). assert (0 < IZR m + 1/2) by lra. assert (-1 < m)%Z by (apply lt_IZR; lra). assert (Hm : (0 <= m)%Z) by lia. apply IZR_le in Hm. lra.
Qed.
Example C103_nonvacuous : quantize_dist (1 - 1/10000000000) 1 = Ok (10 * (1/10)) /\ 10 * (1/10) >= 1/10.
Proof.
  split; [|lra]. rewrite qdist_R. unfold Rlog_py. rewrite Rle_bool_false by lra. cbn [bind].
  replace (1 - 1/10000000000 + 1/10000000000) with 1 by ring. rewrite ln_1. rewrite quantize_R by lra. replace (0 / 1) with (IZR 0) by lra. rewrite r_int_Z. cbn [bind].
  rewrite Rmult_0_l, exp_0. rewrite quantize_R by lra. replace (1 / (1/10)) with (IZR 10) by lra. now rewrite r_int_Z.
Qed.

(** ** C104 *)
Theorem C104_effective_turn_R : forall moment speed inertia : R,
  (1 + inertia * speed = 0 -> effective_turn moment speed inertia = Raise ZeroDivisionError) /\
  (1 + inertia * speed <> 0 -> exists e, effective_turn moment speed inertia = Ok e /\ e * (1 + inertia * speed) = moment) /\
  (* the body never turns by more than the requested moment, and in its direction *)
  (inertia >= 0 -> speed >= 0 -> exists e, effective_turn moment speed inertia = Ok e /\ Rabs e <= Rabs moment /\ e * moment >= 0 /\
     forall speed', speed' >= speed -> exists e', effective_turn moment speed' inertia = Ok e' /\ Rabs e' <= Rabs e).
Proof.
  intros m s i. unfold effective_turn. rnum. split; [|split].
  - intros ->. unfold Rdiv_py. now rewrite Req_bool_true.
  - intros H. rewrite Rdiv_py_ok by easy. eexists. split; [reflexivity|]. field. easy.
  - intros Hi Hs. assert (D : 1 + i * s >= 1) by nra. rewrite Rdiv_py_ok by lra. eexists. split; [reflexivity|].
    assert (AB : forall x, x >= 1 -> Rabs (m / x) = Rabs m * / x). { intros x Hx. unfold Rdiv. rewrite Rabs_mult, (Rabs_pos_eq (/ x)); [easy|]. left. apply Rinv_0_lt_compat. lra. }
    pose proof (Rabs_pos m) as PM. split; [|split].
    + rewrite AB by easy. rewrite <- (Rmult_1_r (Rabs m)) at 2. apply Rmult_le_compat_l; [easy|]. rewrite <- Rinv_1. apply Rinv_le_contravar; lra.
    + unfold Rdiv. replace (m * / (1 + i * s) * m) with (m * m * / (1 + i * s)) by ring. assert (0 < / (1 + i * s)) by (apply Rinv_0_lt_compat; lra). nra.
    + intros s' Hs'. assert (D' : 1 + i * s' >= 1 + i * s) by nra. rewrite Rdiv_py_ok by lra. eexists. split; [reflexivity|]. rewrite !AB by lra. apply Rmult_le_compat_l; [easy|]. apply Rinv_le_contravar; lra.
Qed.
Example C104_nonvacuous : effective_turn 90 (1/2) 4 = Ok 30. Proof. unfold effective_turn. rnum. rewrite Rdiv_py_ok by lra. f_equal. lra. Qed.
