(** * P_RangeF: f_range in IEEE doubles (soccer_math.py:279-312) *)
From Coq Require Import ZArith List Bool String Reals Lra Lia Psatz Sorting.Sorted.
From Flocq Require Import Core BinarySingleNaN.
From Verif Require Import Base Types NumR NumF M_Vector M_Soccer L_Float P_Float P_Robust.
Import ListNotations.
Local Open Scope R_scope.

(** ** Specification *)
(** [b] comes after [a] in the direction of [step]. *)
Definition after (step a b : F) : Prop := 0 < B2R step * (B2R b - B2R a).

(** ** Lemmas *)
Lemma run_det T (N : Num T) (a s t : T) l l' : f_range_run a s t l -> f_range_run a s t l' -> l = l'.
Proof.
  intros H. revert l'. induction H as [a s t E|a s t v a' l E H IH]; intros l' H'; inversion H'; subst; try congruence.
  rewrite E in H0. injection H0 as <- <-. f_equal. auto.
Qed.
Lemma never_ends T (N : Num T) (P : T -> Prop) (s t : T) : (forall a, P a -> exists a', f_range_next a s t = Some (a, a') /\ P a') ->
  forall a, P a -> (forall l, ~ f_range_run a s t l) /\ forall n, List.length (f_range_take n a s t) = n.
Proof.
  intros H a Pa. split.
  - intros l R. revert Pa. induction R as [a s t E|a s t v a' l E R IH]; intros Pa; destruct (H a Pa) as (b & E' & Pb); rewrite E' in E; [discriminate|]. injection E as <- <-. now apply IH.
  - intros n. revert a Pa. induction n as [|n IH]; intros a Pa; [reflexivity|]. destruct (H a Pa) as (b & E' & Pb). cbn [f_range_take]. rewrite E'. cbn [List.length]. f_equal. now apply IH.
Qed.
Lemma zero_F : B2R (F_of_Z 0) = 0 /\ is_finite (F_of_Z 0) = true. Proof. apply (F_of_Z_exact 0). reflexivity. Qed.

(** One turn of the loop. *)
Lemma next_F L (a s t : F) : is_finite a = true -> is_finite s = true -> is_finite t = true -> B2R t <> 0 ->
  (after t a s /\ @f_range_next F (NumF L) a s t = Some (a, Bplus mode_NE a t)) \/ (~ after t a s /\ @f_range_next F (NumF L) a s t = None).
Proof.
  intros Fa Fs Ft NZ. destruct zero_F as [Z1 Z2]. unfold f_range_next, after. cbn [nltb nleb nadd NumF]. change (@nlit F (NumF L) 0 1) with (F_of_Z 0).
  rewrite !ltb_F, !leb_F by assumption. rewrite Z1. destruct (Rdichotomy _ _ NZ) as [N|P].
  - rewrite (Rlt_bool_false 0 (B2R t)), (Rlt_bool_true (B2R t) 0) by lra. cbn [andb]. destruct (Rle_bool_spec (B2R a) (B2R s)) as [H|H].
    + right. split; [|reflexivity]. intros K. assert (0 <= (- B2R t) * (B2R s - B2R a)) by (apply Rmult_le_pos; lra). lra.
    + left. split; [|reflexivity]. assert (0 < (- B2R t) * (B2R a - B2R s)) by (apply Rmult_lt_0_compat; lra). lra.
  - rewrite (Rlt_bool_true 0 (B2R t)), (Rlt_bool_false (B2R t) 0) by lra. cbn [andb]. destruct (Rle_bool_spec (B2R s) (B2R a)) as [H|H].
    + right. split; [|reflexivity]. intros K. assert (0 <= B2R t * (B2R a - B2R s)) by (apply Rmult_le_pos; lra). lra.
    + left. split; [|reflexivity]. apply Rmult_lt_0_compat; lra.
Qed.
(** The next value: rounded, not going back; or an overflow, after which the loop stops. *)
Lemma plus_F (a t : F) : is_finite a = true -> is_finite t = true ->
  (is_finite (Bplus mode_NE a t) = true /\ B2R (Bplus mode_NE a t) = rnd64 (B2R a + B2R t)) \/
  (bpow radix2 1024 <= Rabs (rnd64 (B2R a + B2R t)) /\ Bplus mode_NE a t = B754_infinity (Bsign t) /\ Bsign a = Bsign t).
Proof.
  intros Fa Ft. destruct (Rlt_le_dec (Rabs (rnd64 (B2R a + B2R t))) (bpow radix2 1024)) as [H|H].
  - left. destruct (F_add a t Fa Ft H). now split.
  - right. split; [exact H|]. generalize (Bplus_correct 53 1024 _ _ mode_NE a t Fa Ft). change (round radix2 _ _ _) with (rnd64 (B2R a + B2R t)). rewrite Rlt_bool_false by exact H. intros [E S].
    split; [|exact S]. rewrite <- S. apply B2SF_inj. rewrite E. destruct (Bsign a); reflexivity.
Qed.
Lemma sign_pos (x : F) : is_finite x = true -> (0 < B2R x -> Bsign x = false) /\ (B2R x < 0 -> Bsign x = true).
Proof.
  intros Fx. destruct x as [s|s| |s m e B]; try discriminate Fx; [cbn [B2R]; split; intros H; lra|]. destruct s; (split; intros H; [|]); try reflexivity; exfalso; cbn [B2R cond_Zopp] in H.
  - assert (F2R (Float radix2 (Z.neg m) e) < 0) by (now apply F2R_lt_0). refine (Rlt_irrefl 0 (Rlt_trans _ _ _ H _)). assumption.
  - assert (0 < F2R (Float radix2 (Z.pos m) e)) by (now apply F2R_gt_0). refine (Rlt_irrefl 0 (Rlt_trans _ _ _ _ H)). assumption.
Qed.
Lemma overflow_stops L (a s t : F) : is_finite s = true -> is_finite t = true -> B2R t <> 0 -> @f_range_next F (NumF L) (B754_infinity (Bsign t)) s t = None.
Proof.
  intros Fs Ft NZ. destruct zero_F as [Z1 Z2]. unfold f_range_next. cbn [nltb nleb nadd NumF]. change (@nlit F (NumF L) 0 1) with (F_of_Z 0). rewrite !ltb_F by assumption. rewrite Z1.
  destruct (sign_pos t Ft) as [SP SN]. destruct (Rdichotomy _ _ NZ) as [N|P].
  - rewrite (SN N), (Rlt_bool_false 0 (B2R t)), (Rlt_bool_true (B2R t) 0) by lra. cbn [andb]. destruct s as [[]|[]| |[] ? ? ?]; try discriminate Fs; reflexivity.
  - rewrite (SP P), (Rlt_bool_true 0 (B2R t)) by lra. cbn [andb]. destruct s as [[]|[]| |[] ? ? ?]; try discriminate Fs; reflexivity.
Qed.
Lemma rnd_forward (a t : F) : 0 <= B2R t * (rnd64 (B2R a + B2R t) - B2R a).
Proof.
  destruct (Rle_lt_dec 0 (B2R t)) as [H|H].
  - pose proof (rnd_le (B2R a) (B2R a + B2R t) ltac:(lra)) as K. rewrite (rnd_id (B2R a)) in K by apply fmt_F. apply Rmult_le_pos; lra.
  - pose proof (rnd_le (B2R a + B2R t) (B2R a) ltac:(lra)) as K. rewrite (rnd_id (B2R a)) in K by apply fmt_F. assert (0 <= (- B2R t) * (B2R a - rnd64 (B2R a + B2R t))) by (apply Rmult_le_pos; lra). lra.
Qed.
Lemma fmt_unit x : fmt64 x -> exists z, x = IZR z * bpow radix2 (-1074).
Proof.
  intros Hx. unfold fmt64, generic_format in Hx. set (e := cexp radix2 (FLT_exp (-1074) 53) x) in *. set (z := Ztrunc (scaled_mantissa radix2 (FLT_exp (-1074) 53) x)) in *.
  assert (He : (-1074 <= e)%Z) by (unfold e, cexp, FLT_exp; lia). exists (z * 2 ^ (e + 1074))%Z. rewrite Hx. unfold F2R. cbn [Fnum Fexp]. rewrite mult_IZR, (IZR_Zpower radix2) by lia. rewrite Rmult_assoc, <- bpow_plus. do 2 f_equal. lia.
Qed.
Lemma unit_gap (a b : F) : B2R a < B2R b -> B2R a + bpow radix2 (-1074) <= B2R b.
Proof.
  intros H. destruct (fmt_unit _ (fmt_F a)) as [x X]. destruct (fmt_unit _ (fmt_F b)) as [y Y]. rewrite X, Y in *. pose proof (bpow_gt_0 radix2 (-1074)) as P. set (u := bpow radix2 (-1074)) in *.
  assert ((x < y)%Z). { apply lt_IZR. apply (Rmult_lt_reg_r u); assumption. } assert (K : IZR (x + 1) <= IZR y) by (apply IZR_le; lia). rewrite plus_IZR in K. assert ((IZR x + 1) * u <= IZR y * u) by (apply Rmult_le_compat_r; lra). lra.
Qed.

(** ** C181 *)
(** f_range never ends when the step is zero or NaN, or an end is NaN. *)
Theorem C181_never_F : forall (L : libm) (start stop step : F),
  is_nan start = true \/ is_nan stop = true \/ is_nan step = true \/ (is_finite step = true /\ B2R step = 0) ->
  (forall l, ~ @f_range_run F (NumF L) start stop step l) /\ forall n, List.length (@f_range_take F (NumF L) n start stop step) = n.
Proof.
  intros L a s t [H|[H|[H|[Ft H]]]].
  - apply (never_ends _ _ (fun a => is_nan a = true)); [|exact H]. intros b Hb. destruct b; try discriminate Hb. unfold f_range_next. cbn [nltb nleb nadd NumF]. exists B754_nan. split; [|reflexivity].
    replace (Bleb s B754_nan) with false by now destruct s. rewrite andb_false_r. replace (Bleb B754_nan s) with false by reflexivity. rewrite andb_false_r. reflexivity.
  - apply (never_ends _ _ (fun _ => True)); [|exact I]. intros b _. destruct s; try discriminate H. unfold f_range_next. cbn [nltb nleb nadd NumF]. exists (Bplus mode_NE b t). split; [|exact I].
    replace (Bleb B754_nan b) with false by reflexivity. rewrite andb_false_r. replace (Bleb b B754_nan) with false by now destruct b. rewrite andb_false_r. reflexivity.
  - apply (never_ends _ _ (fun _ => True)); [|exact I]. intros b _. destruct t; try discriminate H. unfold f_range_next. cbn [nltb nleb nadd NumF]. exists (Bplus mode_NE b B754_nan). split; [|exact I].
    rewrite ltb_nan_r, ltb_nan_l. reflexivity.
  - apply (never_ends _ _ (fun _ => True)); [|exact I]. intros b _. destruct zero_F as [Z1 Z2]. unfold f_range_next. cbn [nltb nleb nadd NumF]. change (@nlit F (NumF L) 0 1) with (F_of_Z 0). rewrite !ltb_F by assumption. rewrite Z1, H, Rlt_bool_false by lra. cbn [andb].
    exists (Bplus mode_NE b t). now split.
Qed.

(** For finite ends and a finite nonzero step, f_range either ends, having produced values moving
    strictly towards the stop, or it reaches a value to which adding the step changes nothing,
    and produces that value forever. *)
Theorem C181_ends_or_sticks_F : forall (L : libm) (start stop step : F), is_finite start = true -> is_finite stop = true -> is_finite step = true -> B2R step <> 0 ->
  (exists l, (forall l', @f_range_run F (NumF L) start stop step l' <-> l' = l) /\ Sorted (after step) l /\ Forall (fun v => is_finite v = true /\ after step v stop) l) \/
  (exists l w, (forall n, @f_range_take F (NumF L) (List.length l + n) start stop step = l ++ repeat w n) /\ Sorted (after step) (l ++ [w]) /\ Forall (fun v => is_finite v = true /\ after step v stop) (l ++ [w]) /\
     Bplus mode_NE w step = w /\ forall l', ~ @f_range_run F (NumF L) start stop step l').
Proof.
  intros L a s t Fa Fs Ft NZ.
  assert (G : forall N a, is_finite a = true -> Rabs (B2R s - B2R a) <= INR N * bpow radix2 (-1074) -> (exists l, @f_range_run F (NumF L) a s t l /\ Sorted (after t) l /\ (forall v, hd_error l = Some v -> v = a) /\ Forall (fun v => is_finite v = true /\ after t v s) l) \/
    (exists l w, (forall n, @f_range_take F (NumF L) (List.length l + n) a s t = l ++ repeat w n) /\ Sorted (after t) (l ++ [w]) /\ (forall v, hd_error (l ++ [w]) = Some v -> v = a) /\ Forall (fun v => is_finite v = true /\ after t v s) (l ++ [w]) /\ Bplus mode_NE w t = w /\ forall l', ~ @f_range_run F (NumF L) a s t l')).
  { induction N as [|N IH]; intros b Fb HN; destruct (next_F L b s t Fb Fs Ft NZ) as [[A E]|[A E]]; try (left; exists []; split; [now constructor|]; repeat split; [constructor|discriminate|constructor]).
    - exfalso. cbn [INR] in HN. rewrite Rmult_0_l in HN. assert (Z : B2R s - B2R b = 0) by (apply Rabs_eq_R0; pose proof (Rabs_pos (B2R s - B2R b)); lra). unfold after in A. rewrite Z, Rmult_0_r in A. lra.
    - set (b' := Bplus mode_NE b t) in *. destruct (plus_F b t Fb Ft) as [[P1 P2]|(P1 & P2 & P3)]; fold b' in P2; [fold b' in P1|].
      + destruct (Req_dec (B2R b') (B2R b)) as [EQ|NE].
        * assert (NB : B2R b <> 0). { intros Z. rewrite P2, Z, Rplus_0_l, (rnd_id (B2R t)) in EQ by apply fmt_F. exact (NZ EQ). }
          assert (ST : b' = b) by (apply B2R_inj; [now apply is_finite_strict_B2R; rewrite EQ|now apply is_finite_strict_B2R|exact EQ]).
          rewrite ST in E. destruct (stuck_forever F (NumF L) b s t E) as [S1 S2]. right. exists [], b. split; [exact S1|]. cbn [app]. split; [repeat constructor|]. split; [intros v [= ->]; reflexivity|]. split; [repeat constructor; assumption|]. split; [exact ST|exact S2].
        * assert (AF : after t b b'). { unfold after. pose proof (rnd_forward b t) as K. rewrite <- P2 in K. destruct K as [K|K]; [exact K|]. symmetry in K. apply Rmult_integral in K. destruct K as [K|K]; [now elim NZ|]. elim NE. lra. }
          destruct (next_F L b' s t P1 Fs Ft NZ) as [[A' E']|[A' E']].
          -- destruct (IH b' P1) as [(l & R & S & H & W)|(l & w & T & S & H & W & ST & NR)].
             { rewrite S_INR in HN. assert (HD : Rabs (B2R s - B2R b') + bpow radix2 (-1074) <= Rabs (B2R s - B2R b)); [|lra]. unfold after in A, A', AF. destruct (Rdichotomy _ _ NZ) as [N0|P0].
               - assert (Q : forall u v, 0 < B2R t * (u - v) -> u < v) by (intros u v Q; apply Rnot_le_lt; intros K; assert (0 <= (- B2R t) * (u - v)) by (apply Rmult_le_pos; lra); lra). apply Q in A, A', AF. pose proof (unit_gap b' b AF). rewrite !Rabs_left by lra. lra.
               - assert (Q : forall u v, 0 < B2R t * (u - v) -> v < u) by (intros u v Q; apply Rnot_le_lt; intros K; assert (0 <= B2R t * (v - u)) by (apply Rmult_le_pos; lra); lra). apply Q in A, A', AF. pose proof (unit_gap b b' AF). rewrite !Rabs_pos_eq by lra. lra. }
             ++ left. exists (b :: l). split; [econstructor; eassumption|]. split; [constructor; [exact S|]|split; [intros v [= ->]; reflexivity|constructor; [now split|exact W]]]. destruct l as [|v l]; constructor. now rewrite (H v eq_refl).
             ++ right. exists (b :: l), w. split; [intros n; cbn [List.length Nat.add f_range_take]; rewrite E; cbn [app]; f_equal; apply T|]. cbn [app]. split; [constructor; [exact S|]|].
                { destruct (l ++ [w]) as [|v r]; constructor. now rewrite (H v eq_refl). }
                split; [intros v [= ->]; reflexivity|]. split; [constructor; [now split|exact W]|]. split; [exact ST|]. intros l' R'. inversion R' as [? ? ? Q|? ? ? v a' l'' Q R'']; subst; rewrite E in Q; [discriminate|]. injection Q as <- <-. now apply (NR l'').
          -- left. exists [b]. split; [econstructor; [exact E|now constructor]|]. split; [repeat constructor|]. split; [intros v [= ->]; reflexivity|repeat constructor; assumption].
      + left. exists [b]. split; [econstructor; [exact E|constructor; rewrite P2; now apply overflow_stops]|]. split; [repeat constructor|]. split; [intros v [= ->]; reflexivity|repeat constructor; assumption]. }
  destruct (G (Z.to_nat (up (Rabs (B2R s - B2R a) / bpow radix2 (-1074)))) a Fa) as [(l & R & S & _ & W)|(l & w & T & S & _ & W & ST & NR)].
  - pose proof (bpow_gt_0 radix2 (-1074)) as P. set (u := bpow radix2 (-1074)) in *. set (d := Rabs (B2R s - B2R a)) in *. destruct (archimed (d / u)) as [U _]. assert (D : 0 <= d / u) by (apply Rmult_le_pos; [apply Rabs_pos|left; now apply Rinv_0_lt_compat]).
    assert (UP : (0 <= up (d / u))%Z) by (apply le_IZR; lra). rewrite INR_IZR_INZ, Z2Nat.id by exact UP. apply Rle_trans with (d / u * u); [unfold Rdiv; rewrite Rmult_assoc, Rinv_l, Rmult_1_r; lra|]. apply Rmult_le_compat_r; lra.
  - left. exists l. split; [intros l'; split; [intros R'; eapply run_det; eassumption|intros ->; exact R]|]. now split.
  - right. exists l, w. repeat split; assumption.
Qed.

(** ** How accurate the values are *)
Lemma dir_pos (t u : R) : 0 < t -> (0 < t * u <-> 0 < u).
Proof. intros T. split; intros H; [apply Rnot_le_lt; intros K; assert (0 <= t * - u) by (apply Rmult_le_pos; lra); lra|now apply Rmult_lt_0_compat]. Qed.
Lemma dir_neg (t u : R) : t < 0 -> (0 < t * u <-> u < 0).
Proof. intros T. replace (t * u) with (- t * - u) by ring. rewrite dir_pos by lra. split; lra. Qed.
(** If the step is at least 2^-53 of the size of the range, f_range ends; its i-th value is the
    exact one up to i * 2^(k-54), and it stops within that error of the stop. *)
Theorem C181_values_F : forall (L : libm) (k : Z) (start stop step : F), (-900 <= k <= 900)%Z ->
  is_finite start = true -> is_finite stop = true -> is_finite step = true -> Rabs (B2R start) <= bpow radix2 k -> Rabs (B2R stop) <= bpow radix2 k -> bpow radix2 (k - 53) <= Rabs (B2R step) ->
  exists l, (forall l', @f_range_run F (NumF L) start stop step l' <-> l' = l) /\
    (forall i v, nth_error l i = Some v -> is_finite v = true /\ after step v stop /\ Rabs (B2R v - (B2R start + INR i * B2R step)) <= INR i * bpow radix2 (k - 54)) /\
    let past := B2R start + INR (List.length l) * B2R step in let err := INR (List.length l) * bpow radix2 (k - 54) in
    (0 < B2R step -> B2R stop - err <= past) /\ (B2R step < 0 -> past <= B2R stop + err).
Proof.
  intros L k a0 s t Hk Fa0 Fs Ft Ba0 Bs Bt. set (e := bpow radix2 (k - 54)) in *. assert (PE : 0 < e) by apply bpow_gt_0.
  assert (E2 : bpow radix2 (k - 53) = 2 * e) by (unfold e; replace (k - 53)%Z with (1 + (k - 54))%Z by lia; apply bp2). rewrite E2 in Bt.
  assert (NZ : B2R t <> 0) by (intros Z; rewrite Z, Rabs_R0 in Bt; lra). set (T := B2R t) in *. set (S := B2R s) in *. set (A0 := B2R a0) in *.
  assert (EK : 2 * e <= bpow radix2 k) by (rewrite <- E2; apply bpow_le; lia).
  assert (BK : fmt64 (bpow radix2 k)) by (apply fmt_bpow; lia). assert (KMAX : bpow radix2 k < bpow radix2 1024) by (apply bpow_lt; lia).
  assert (G : forall N a i, is_finite a = true -> Rabs (B2R a) <= bpow radix2 k -> (after t a s -> Rabs (S - B2R a) <= INR N * e) -> Rabs (B2R a - (A0 + INR i * T)) <= INR i * e ->
    exists l, @f_range_run F (NumF L) a s t l /\ (forall j v, nth_error l j = Some v -> is_finite v = true /\ after t v s /\ Rabs (B2R v - (A0 + INR (i + j) * T)) <= INR (i + j) * e) /\
      let past := A0 + INR (i + List.length l) * T in let err := INR (i + List.length l) * e in (0 < T -> S - err <= past) /\ (T < 0 -> past <= S + err)).
  { induction N as [|N IH]; intros a i Fa Ba HN HA; destruct (next_F L a s t Fa Fs Ft NZ) as [[A E]|[A E]].
    - exfalso. specialize (HN A). cbn [INR] in HN. rewrite Rmult_0_l in HN. assert (Z : S - B2R a = 0) by (apply Rabs_eq_R0; pose proof (Rabs_pos (S - B2R a)); lra). unfold after in A. fold S T in A. rewrite Z, Rmult_0_r in A. lra.
    - exists []. split; [now constructor|]. split; [intros [|j] v Q; discriminate Q|]. cbn [List.length]. rewrite Nat.add_0_r. unfold after in A. fold S T in A. apply Rabs_le_inv in HA. split; intros TS; [rewrite dir_pos in A by assumption|rewrite dir_neg in A by assumption]; lra.
    - set (a' := Bplus mode_NE a t) in *. specialize (HN A). rewrite S_INR in HN. unfold after in A. fold S T in A. set (x := B2R a + T) in *. apply Rabs_le_inv in HA.
      assert (X1 : x - (A0 + INR (i + 1) * T) = B2R a - (A0 + INR i * T)) by (unfold x; rewrite plus_INR; cbn [INR]; ring).
      assert (FIRST : nth_error [a] 0 = Some a) by reflexivity.
      destruct (Rle_lt_dec (Rabs x) (bpow radix2 k)) as [IN|OUT].
      + destruct (rnd_err x k ltac:(lia) IN) as [R1 R2]. fold e in R1. destruct (F_add a t Fa Ft) as [P1 P2]; [fold T x; lra|]. fold a' in P1, P2. fold T in P1. fold x in P1. rewrite <- P1 in R1, R2. apply Rabs_le_inv in R1.
        assert (HA' : Rabs (B2R a' - (A0 + INR (i + 1) * T)) <= INR (i + 1) * e). { apply Rabs_le. rewrite (plus_INR i 1) at 1 4. cbn [INR]. split; lra. }
        destruct (IH a' (i + 1)%nat P2 R2) as (l & RUN & V & END); [|exact HA'|].
        { unfold after. fold S T. intros A'. apply Rle_trans with (Rabs (S - B2R a) - e); [|lra]. destruct (Rdichotomy _ _ NZ) as [N0|P0].
          - rewrite dir_neg in A, A' by assumption. rewrite !Rabs_left by lra. rewrite Rabs_left in Bt by assumption. unfold x in R1. lra.
          - rewrite dir_pos in A, A' by assumption. rewrite !Rabs_pos_eq by lra. rewrite Rabs_pos_eq in Bt by lra. unfold x in R1. lra. }
        exists (a :: l). split; [econstructor; eassumption|]. split.
        * intros [|j] v Q; cbn [nth_error] in Q. { injection Q as <-. rewrite Nat.add_0_r. split; [exact Fa|]. split; [exact A|]. apply Rabs_le. lra. }
          replace (i + Datatypes.S j)%nat with (i + 1 + j)%nat by lia. now apply V.
        * cbn [List.length]. replace (i + Datatypes.S (List.length l))%nat with (i + 1 + List.length l)%nat by lia. exact END.
      + apply Rabs_le_inv in Ba, Bs. exists [a].
        assert (ST : @f_range_next F (NumF L) a' s t = None).
        { destruct (plus_F a t Fa Ft) as [[P1 P2]|(P1 & P2 & P3)]; [|fold a' in P2; rewrite P2; now apply overflow_stops]. fold a' in P1, P2. fold T in P2. fold x in P2. destruct (next_F L a' s t P1 Fs Ft NZ) as [[A' E']|[A' E']]; [|exact E']. exfalso. unfold after in A'. fold S T in A'. rewrite P2 in A'. destruct (Rdichotomy _ _ NZ) as [N0|P0].
          - rewrite dir_neg in A' by assumption. rewrite Rabs_left1 in OUT; [|apply Rnot_lt_le; intros K; rewrite Rabs_pos_eq in OUT by lra; unfold x in OUT; lra]. pose proof (rnd_le x (- bpow radix2 k) ltac:(lra)) as K. rewrite (rnd_id (- bpow radix2 k)) in K by now apply fmt_opp. fold S in Bs. lra.
          - rewrite dir_pos in A' by assumption. rewrite Rabs_pos_eq in OUT; [|apply Rnot_lt_le; intros K; rewrite Rabs_left in OUT by lra; unfold x in OUT; lra]. pose proof (rnd_le (bpow radix2 k) x ltac:(lra)) as K. rewrite (rnd_id (bpow radix2 k)) in K by assumption. fold S in Bs. lra. }
        split; [econstructor; [exact E|now constructor]|]. split.
        * intros [|[|j]] v Q; try discriminate Q. injection Q as <-. rewrite Nat.add_0_r. split; [exact Fa|]. split; [exact A|]. apply Rabs_le. lra.
        * cbn [List.length]. assert (PI1 : INR i * e <= INR (i + 1) * e) by (apply Rmult_le_compat_r; [lra|apply le_INR; lia]). split; intros TS.
          -- rewrite Rabs_pos_eq in OUT; [lra|apply Rnot_lt_le; intros K; rewrite Rabs_left in OUT by lra; unfold x in OUT; lra].
          -- rewrite Rabs_left1 in OUT; [lra|apply Rnot_lt_le; intros K; rewrite Rabs_pos_eq in OUT by lra; unfold x in OUT; lra].
    - exists []. split; [now constructor|]. split; [intros [|j] v Q; discriminate Q|]. cbn [List.length]. rewrite Nat.add_0_r. unfold after in A. fold S T in A. apply Rabs_le_inv in HA. split; intros TS; [rewrite dir_pos in A by assumption|rewrite dir_neg in A by assumption]; lra. }
  destruct (G (Z.to_nat (up (Rabs (S - A0) / e))) a0 0%nat Fa0 Ba0) as (l & RUN & V & END).
  - intros _. fold A0. set (d := Rabs (S - A0)) in *. destruct (archimed (d / e)) as [U _]. assert (D : 0 <= d / e) by (apply Rmult_le_pos; [apply Rabs_pos|left; now apply Rinv_0_lt_compat]).
    assert (UP : (0 <= up (d / e))%Z) by (apply le_IZR; lra). rewrite INR_IZR_INZ, Z2Nat.id by exact UP. apply Rle_trans with (d / e * e); [unfold Rdiv; rewrite Rmult_assoc, Rinv_l, Rmult_1_r; lra|]. apply Rmult_le_compat_r; lra.
  - fold A0. cbn [INR]. rewrite !Rmult_0_l, Rplus_0_r, Rminus_diag_eq, Rabs_R0 by reflexivity. lra.
  - exists l. split; [intros l'; split; [intros R'; eapply run_det; eassumption|intros ->; exact RUN]|]. split; [exact V|exact END].
Qed.

(** On a grid of doubles f_range is exact: start, stop and step are a, s and t units of 2^e. *)
Theorem C181_exact_F : forall (L : libm) (e a s t : Z) (start stop step : F), (-1074 <= e <= 900)%Z -> (Z.abs a <= 2 ^ 52)%Z -> (Z.abs s <= 2 ^ 52)%Z -> (Z.abs t <= 2 ^ 52)%Z -> t <> 0%Z ->
  units e a start -> units e s stop -> units e t step ->
  exists l, (forall l', @f_range_run F (NumF L) start stop step l' <-> l' = l) /\
    (forall i v, nth_error l i = Some v -> is_finite v = true /\ B2R v = B2R start + INR i * B2R step) /\
    (forall i, (i < List.length l)%nat <-> (0 < t * (s - (a + Z.of_nat i * t)))%Z).
Proof.
  intros L e a s t a0 s0 t0 He Ha Hs Ht NT Ua Us Ut. assert (Fs : is_finite s0 = true) by apply Us. assert (Ft : is_finite t0 = true) by apply Ut. pose proof (bpow_gt_0 radix2 e) as PE.
  assert (NZ : B2R t0 <> 0) by (destruct Ut as [_ Ut]; rewrite Ut; apply Rmult_integral_contrapositive; split; [now apply not_0_IZR|lra]).
  assert (AF : forall b x, units e b x -> (after t0 x s0 <-> (0 < t * (s - b))%Z)).
  { intros b x [_ Ub]. unfold after. destruct Us as [_ ->], Ut as [_ ->]. rewrite Ub. replace (IZR t * bpow radix2 e * (IZR s * bpow radix2 e - IZR b * bpow radix2 e)) with (bpow radix2 e * bpow radix2 e * IZR (t * (s - b))) by (rewrite mult_IZR, minus_IZR; ring).
    rewrite dir_pos by now apply Rmult_lt_0_compat. split; [apply lt_IZR|apply IZR_lt]. }
  assert (G : forall N b x, (Z.abs b <= 2 ^ 52)%Z -> (Z.abs (s - b) <= Z.of_nat N)%Z -> units e b x -> exists l, @f_range_run F (NumF L) x s0 t0 l /\ (forall i v, nth_error l i = Some v -> is_finite v = true /\ B2R v = B2R x + INR i * B2R t0) /\ (forall i, (i < List.length l)%nat <-> (0 < t * (s - (b + Z.of_nat i * t)))%Z)).
  { induction N as [|N IH]; intros b x Hb HN Ux; destruct (next_F L x s0 t0 (proj1 Ux) Fs Ft NZ) as [[A E]|[A E]]; rewrite (AF b x Ux) in A.
    - exfalso. replace (s - b)%Z with 0%Z in A by lia. lia.
    - exists []. split; [now constructor|]. split; [intros [|j] v Q; discriminate Q|]. intros i. cbn [List.length]. split; [lia|]. intros K. exfalso. apply A. assert (0 <= t * (Z.of_nat i * t))%Z by (replace (t * (Z.of_nat i * t))%Z with (Z.of_nat i * (t * t))%Z by ring; apply Z.mul_nonneg_nonneg; [lia|apply Z.square_nonneg]). lia.
    - assert (Ux' := units_add e b t x t0 Ux Ut ltac:(lia) He). set (x' := Bplus mode_NE x t0) in *.
      assert (L0 : exists l, @f_range_run F (NumF L) x' s0 t0 l /\ (forall i v, nth_error l i = Some v -> is_finite v = true /\ B2R v = B2R x' + INR i * B2R t0) /\ (forall i, (i < List.length l)%nat <-> (0 < t * (s - (b + t + Z.of_nat i * t)))%Z)).
      { destruct (next_F L x' s0 t0 (proj1 Ux') Fs Ft NZ) as [[A' E']|[A' E']]; rewrite (AF (b + t)%Z x' Ux') in A'.
        - apply IH; [nia|nia|exact Ux'].
        - exists []. split; [now constructor|]. split; [intros [|j] v Q; discriminate Q|]. intros i. cbn [List.length]. split; [lia|]. intros K. exfalso. apply A'. assert (0 <= t * (Z.of_nat i * t))%Z by (replace (t * (Z.of_nat i * t))%Z with (Z.of_nat i * (t * t))%Z by ring; apply Z.mul_nonneg_nonneg; [lia|apply Z.square_nonneg]). lia. }
      destruct L0 as (l & RUN & V & LEN). assert (VX : B2R x' = B2R x + B2R t0) by (destruct Ux' as [_ ->], Ux as [_ ->], Ut as [_ ->]; rewrite plus_IZR; ring).
      exists (x :: l). split; [econstructor; eassumption|]. split.
      + intros [|j] v Q; cbn [nth_error] in Q; [injection Q as <-; split; [apply Ux|cbn [INR]; ring]|]. destruct (V j v Q) as [V1 V2]. split; [exact V1|]. rewrite V2, VX, S_INR. ring.
      + intros [|i]; cbn [List.length]; [replace (b + Z.of_nat 0 * t)%Z with b by lia; split; [intros _; exact A|lia]|]. rewrite <- Nat.succ_lt_mono, LEN. replace (b + t + Z.of_nat i * t)%Z with (b + Z.of_nat (S i) * t)%Z by lia. reflexivity.
    - exists []. split; [now constructor|]. split; [intros [|j] v Q; discriminate Q|]. intros i. cbn [List.length]. split; [lia|]. intros K. exfalso. apply A. assert (0 <= t * (Z.of_nat i * t))%Z by (replace (t * (Z.of_nat i * t))%Z with (Z.of_nat i * (t * t))%Z by ring; apply Z.mul_nonneg_nonneg; [lia|apply Z.square_nonneg]). lia. }
  destruct (G (Z.to_nat (Z.abs (s - a))) a a0 Ha ltac:(lia) Ua) as (l & RUN & V & LEN). exists l. split; [intros l'; split; [intros R'; eapply run_det; eassumption|intros ->; exact RUN]|]. now split.
Qed.

Lemma take_run T (N : Num T) (n : nat) (a s t : T) : (List.length (f_range_take n a s t) < n)%nat -> f_range_run a s t (f_range_take n a s t).
Proof.
  revert a. induction n as [|n IH]; intros a H; [lia|]. cbn [f_range_take] in *. destruct (f_range_next a s t) as [[v a']|] eqn:E; [|now constructor]. cbn [List.length] in H. econstructor; [exact E|]. apply IH. lia.
Qed.
(** f_range(0.0, 1.0, 0.1) produces eleven values: the last is 0.9999999999999999. With exact
    additions the double 0.1 (a little more than 1/10) gives ten. *)
Definition tenth_step : F := Fd 3602879701896397 (-55).
Theorem C181_tenths_refuted_F : forall L : libm, let zero := F_of_Z 0 in let one := F_of_Z 1 in
  B2R one <= B2R zero + INR 10 * B2R tenth_step /\
  exists l last, @f_range_run F (NumF L) zero one tenth_step (l ++ [last]) /\ List.length l = 10%nat /\ B2R last = 1 - bpow radix2 (-53).
Proof.
  intros L zero one. destruct zero_F as [Z1 Z2]. destruct (F_of_Z_exact 1 eq_refl) as [O1 O2].
  assert (T1 : B2R tenth_step = 3602879701896397 * / 36028797018963968) by (unfold tenth_step; rewrite Fd_exact by lia; reflexivity).
  split. { unfold zero, one. rewrite Z1, O1, T1. replace (INR 10) with 10 by (cbn; lra). lra. }
  set (r := @f_range_take F (NumF L) 12 zero one tenth_step). assert (LE : List.length r = 11%nat) by (vm_compute; reflexivity). assert (R : @f_range_run F (NumF L) zero one tenth_step r) by (apply take_run; fold r; lia).
  exists (firstn 10 r), (nth 10 r zero). split; [|split].
  - replace (firstn 10 r ++ [nth 10 r zero]) with r; [exact R|]. clear R. clearbody r. do 12 (destruct r as [|? r]; cbn [List.length] in LE; try lia). reflexivity.
  - rewrite firstn_length, LE. reflexivity.
  - assert (E : B2SF (nth 10 r zero) = B2SF (Fd 9007199254740991 (-53))) by (vm_compute; reflexivity). apply B2SF_inj in E. rewrite E, Fd_exact by lia. change (bpow radix2 (-53)) with (/ 9007199254740992). lra.
Qed.
(** 0.0 to 1.0 by 0.1 is in the domain of C181_values_F (k = 0), 3 to -2 by -2 in that of C181_exact_F,
    and 2^53 to 2^53+2 by 1 sticks at once. *)
Example C181_nonvacuous : (Rabs (B2R (F_of_Z 0)) <= bpow radix2 0 /\ Rabs (B2R (F_of_Z 1)) <= bpow radix2 0 /\ bpow radix2 (0 - 53) <= Rabs (B2R tenth_step)) /\
  (units 0 3 (F_of_Z 3) /\ units 0 (-2) (F_of_Z (-2)) /\ (0 < -2 * (-2 - (3 + Z.of_nat 2 * -2)))%Z) /\
  (is_finite (Fd 1 53) = true /\ after (F_of_Z 1) (Fd 1 53) (Fd 4503599627370497 1) /\ Bplus mode_NE (Fd 1 53) (F_of_Z 1) = Fd 1 53) /\ is_nan (@B754_nan 53 1024) = true.
Proof.
  destruct zero_F as [Z1 Z2]. destruct (F_of_Z_exact 1 eq_refl) as [O1 O2]. destruct (F_of_Z_exact 3 eq_refl) as [A1 A2]. destruct (F_of_Z_exact (-2) eq_refl) as [B1 B2].
  assert (T1 : B2R tenth_step = 3602879701896397 * / 36028797018963968) by (unfold tenth_step; rewrite Fd_exact by lia; reflexivity).
  split; [|split; [|split; [|reflexivity]]].
  - rewrite Z1, O1, T1. change (bpow radix2 0) with 1. change (bpow radix2 (0 - 53)) with (/ 9007199254740992). rewrite Rabs_R0, !Rabs_pos_eq by lra. lra.
  - unfold units. change (bpow radix2 0) with 1. rewrite A1, B1. repeat split; try assumption; try lra. 
  - split; [reflexivity|]. split; [|apply B2SF_inj; vm_compute; reflexivity]. unfold after. rewrite O1, Fd_exact by lia. rewrite Fd_exact by lia. change (bpow radix2 1) with 2. change (bpow radix2 53) with 9007199254740992. lra.
Qed.
