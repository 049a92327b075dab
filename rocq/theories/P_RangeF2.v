(** * P_RangeF2: f_range with infinite ends or an infinite step (C181) *)
From Coq Require Import ZArith List Bool String Reals Lra Lia Psatz Sorting.Sorted.
From Flocq Require Import Core BinarySingleNaN.
From Verif Require Import Base Types NumR NumF M_Vector M_Soccer L_Float P_Float P_Robust P_RangeF.
Import ListNotations.
Local Open Scope R_scope.

Lemma bpow_split e : bpow radix2 (e + 1) = 2 * bpow radix2 e.
Proof. rewrite bpow_plus. cbn -[bpow]. change (bpow radix2 1) with 2. ring. Qed.
(** the largest double *)
Lemma below_max x : 0 <= x < bpow radix2 1024 - bpow radix2 970 -> rnd64 x <= bpow radix2 1024 - bpow radix2 971.
Proof.
  intros Hx. set (m := bpow radix2 1024 - bpow radix2 971).
  assert (FM : fmt64 m).
  { replace m with (F2R (Float radix2 (2 ^ 53 - 1) 971)); [apply fmt_F2R; [reflexivity|lia]|]. unfold F2R, m. cbn [Fnum Fexp]. rewrite minus_IZR. replace 1024%Z with (53 + 971)%Z by reflexivity. rewrite bpow_plus. change (IZR (2 ^ 53)) with (bpow radix2 53). ring. }
  apply (round_N_le_midp radix2 (FLT_exp (-1074) 53)); [exact FM|].
  assert (S : succ radix2 (FLT_exp (-1074) 53) m = bpow radix2 1024).
  { rewrite succ_eq_pos by (unfold m; pose proof (bpow_le radix2 971 1024 ltac:(lia)); lra). rewrite ulp_neq_0 by (unfold m; pose proof (bpow_lt radix2 971 1024 ltac:(lia)); lra). unfold cexp.
    rewrite (mag_unique_pos radix2 m 1024); [change (FLT_exp (-1074) 53 1024) with 971%Z; unfold m; ring|]. unfold m. split; [|pose proof (bpow_gt_0 radix2 971); lra].
    pose proof (bpow_split 1023) as E. change (1023 + 1)%Z with 1024%Z in E. change (1024 - 1)%Z with 1023%Z. pose proof (bpow_le radix2 971 1023 ltac:(lia)). lra. }
  rewrite S. unfold m. pose proof (bpow_split 970) as E. change (970 + 1)%Z with 971%Z in E. lra.
Qed.
Lemma le_max (x : F) : is_finite x = true -> Rabs (B2R x) <= bpow radix2 1024 - bpow radix2 971.
Proof. intros H. pose proof (abs_B2R_le_emax_minus_prec 53 1024 prec53 x) as K. exact K. Qed.

(** the stop a step cannot reach: infinite, in the direction of the step *)
Definition endless_stop (t : F) : F := B754_infinity (Bsign t).
Lemma next_inf L (a t : F) : is_finite a = true -> is_finite t = true -> B2R t <> 0 -> @f_range_next F (NumF L) a (endless_stop t) t = Some (a, Bplus mode_NE a t).
Proof.
  intros Fa Ft NZ. destruct zero_F as [Z1 Z2]. unfold f_range_next, endless_stop. cbn [nltb nleb nadd NumF]. change (@nlit F (NumF L) 0 1) with (F_of_Z 0). rewrite !ltb_F by assumption. rewrite Z1.
  destruct (sign_pos t Ft) as [SP SN]. destruct (Rdichotomy _ _ NZ) as [N|P].
  - rewrite (SN N), (Rlt_bool_false 0 (B2R t)) by lra. cbn [andb]. replace (Bleb a (B754_infinity true)) with false by (destruct a as [[]|[]| |[] ? ? ?]; try discriminate Fa; reflexivity). now rewrite andb_false_r.
  - rewrite (SP P), (Rlt_bool_false (B2R t) 0) by lra. replace (Bleb (B754_infinity false) a) with false by (destruct a as [[]|[]| |[] ? ? ?]; try discriminate Fa; reflexivity). now rewrite andb_false_r.
Qed.
Lemma next_over L (t : F) : is_finite t = true -> B2R t <> 0 -> @f_range_next F (NumF L) (B754_infinity (Bsign t)) (endless_stop t) t = None.
Proof.
  intros Ft NZ. destruct zero_F as [Z1 Z2]. unfold f_range_next, endless_stop. cbn [nltb nleb nadd NumF]. change (@nlit F (NumF L) 0 1) with (F_of_Z 0). rewrite !ltb_F by assumption. rewrite Z1.
  destruct (sign_pos t Ft) as [SP SN]. destruct (Rdichotomy _ _ NZ) as [N|P].
  - rewrite (SN N), (Rlt_bool_false 0 (B2R t)), (Rlt_bool_true (B2R t) 0) by lra. reflexivity.
  - rewrite (SP P), (Rlt_bool_true 0 (B2R t)) by lra. reflexivity.
Qed.

(** C181: an infinite stop ahead of a finite start.  Every value is finite and comes strictly after the one before, until
    the last one overflows and f_range ends, or a value is reached to which adding the step changes nothing; with a step
    below 2^970 only the second is possible. *)
Theorem C181_infinite_stop_F : forall (L : libm) (start step : F), is_finite start = true -> is_finite step = true -> B2R step <> 0 ->
  let stop := endless_stop step in
  (exists l, (forall l', @f_range_run F (NumF L) start stop step l' <-> l' = l) /\ l <> [] /\ Sorted (after step) l /\ Forall (fun v => is_finite v = true) l /\ bpow radix2 970 <= Rabs (B2R step)) \/
  (exists l w, (forall n, @f_range_take F (NumF L) (List.length l + n) start stop step = l ++ repeat w n) /\ Sorted (after step) (l ++ [w]) /\ Forall (fun v => is_finite v = true) (l ++ [w]) /\
     Bplus mode_NE w step = w /\ forall l', ~ @f_range_run F (NumF L) start stop step l').
Proof.
  intros L a t Fa Ft NZ s.
  set (C := if Bsign t then - bpow radix2 1024 else bpow radix2 1024).
  assert (G : forall N a, is_finite a = true -> Rabs (C - B2R a) <= INR N * bpow radix2 (-1074) -> (exists l, @f_range_run F (NumF L) a s t l /\ l <> [] /\ Sorted (after t) l /\ (forall v, hd_error l = Some v -> v = a) /\ Forall (fun v => is_finite v = true) l /\ bpow radix2 970 <= Rabs (B2R t)) \/
    (exists l w, (forall n, @f_range_take F (NumF L) (List.length l + n) a s t = l ++ repeat w n) /\ Sorted (after t) (l ++ [w]) /\ (forall v, hd_error (l ++ [w]) = Some v -> v = a) /\ Forall (fun v => is_finite v = true) (l ++ [w]) /\ Bplus mode_NE w t = w /\ forall l', ~ @f_range_run F (NumF L) a s t l')).
  { clear a Fa. destruct (sign_pos t Ft) as [SP SN].
    induction N as [|N IH]; intros b Fb HN; pose proof (next_inf L b t Fb Ft NZ) as E; fold s in E; pose proof (le_max b Fb) as LM; pose proof (bpow_gt_0 radix2 971) as P971.
    - exfalso. cbn [INR] in HN. rewrite Rmult_0_l in HN. assert (Z : C - B2R b = 0) by (apply Rabs_eq_R0; pose proof (Rabs_pos (C - B2R b)); lra). apply Rabs_le_inv in LM. unfold C in Z. destruct (Bsign t); lra.
    - set (b' := Bplus mode_NE b t) in *. destruct (plus_F b t Fb Ft) as [[P1 P2]|(P1 & P2 & P3)]; fold b' in P2; [fold b' in P1|].
      + destruct (Req_dec (B2R b') (B2R b)) as [EQ|NE].
        * assert (NB : B2R b <> 0). { intros Z. rewrite P2, Z, Rplus_0_l, (rnd_id (B2R t)) in EQ by apply fmt_F. exact (NZ EQ). }
          assert (ST : b' = b) by (apply B2R_inj; [now apply is_finite_strict_B2R; rewrite EQ|now apply is_finite_strict_B2R|exact EQ]).
          rewrite ST in E. destruct (stuck_forever F (NumF L) b s t E) as [S1 S2]. right. exists [], b. split; [exact S1|]. cbn [app]. split; [repeat constructor|]. split; [intros v [= ->]; reflexivity|]. split; [repeat constructor; assumption|]. split; [exact ST|exact S2].
        * assert (AF : after t b b'). { unfold after. pose proof (rnd_forward b t) as K. rewrite <- P2 in K. destruct K as [K|K]; [exact K|]. symmetry in K. apply Rmult_integral in K. destruct K as [K|K]; [now elim NZ|]. elim NE. lra. }
          destruct (IH b' P1) as [(l & R & NL & S & H & W & BG)|(l & w & T & S & H & W & ST & NR)].
          { rewrite S_INR in HN. assert (HD : Rabs (C - B2R b') + bpow radix2 (-1074) <= Rabs (C - B2R b)); [|lra]. unfold after in AF. pose proof (le_max b' P1) as LM'. apply Rabs_le_inv in LM, LM'. destruct (Rdichotomy _ _ NZ) as [N0|P0].
            - assert (Q : forall u v, 0 < B2R t * (u - v) -> u < v) by (intros u v Q; apply Rnot_le_lt; intros K; assert (0 <= (- B2R t) * (u - v)) by (apply Rmult_le_pos; lra); lra). apply Q in AF. pose proof (unit_gap b' b AF). unfold C. rewrite (SN N0). rewrite !Rabs_left by lra. lra.
            - assert (Q : forall u v, 0 < B2R t * (u - v) -> v < u) by (intros u v Q; apply Rnot_le_lt; intros K; assert (0 <= B2R t * (v - u)) by (apply Rmult_le_pos; lra); lra). apply Q in AF. pose proof (unit_gap b b' AF). unfold C. rewrite (SP P0). rewrite !Rabs_pos_eq by lra. lra. }
          -- left. exists (b :: l). split; [econstructor; eassumption|]. split; [discriminate|]. split; [constructor; [exact S|]|split; [intros v [= ->]; reflexivity|split; [constructor; assumption|exact BG]]]. destruct l as [|v l]; constructor. now rewrite (H v eq_refl).
          -- right. exists (b :: l), w. split; [intros n; cbn [List.length Nat.add f_range_take]; rewrite E; cbn [app]; f_equal; apply T|]. cbn [app]. split; [constructor; [exact S|]|].
             { destruct (l ++ [w]) as [|v r]; constructor. now rewrite (H v eq_refl). }
             split; [intros v [= ->]; reflexivity|]. split; [constructor; [exact Fb|exact W]|]. split; [exact ST|]. intros l' R'. inversion R' as [? ? ? Q|? ? ? v a' l'' Q R'']; subst; rewrite E in Q; [discriminate|]. injection Q as <- <-. now apply (NR l'').
      + left. exists [b]. split; [econstructor; [exact E|]; rewrite P2; constructor; now apply next_over|]. split; [discriminate|]. split; [repeat constructor|]. split; [intros v [= ->]; reflexivity|]. split; [repeat constructor; assumption|].
        apply Rnot_lt_le. intros SM. assert (AB : Rabs (rnd64 (B2R b + B2R t)) = rnd64 (Rabs (B2R b + B2R t))) by (unfold rnd64; symmetry; apply round_NE_abs; apply FLT_exp_valid; exact prec53).
        rewrite AB in P1. pose proof (Rabs_triang (B2R b) (B2R t)) as TR. pose proof (bpow_split 970) as E97. change (970 + 1)%Z with 971%Z in E97. pose proof (below_max (Rabs (B2R b + B2R t))) as BM. pose proof (Rabs_pos (B2R b + B2R t)). lra. }
  destruct (archimed (Rabs (C - B2R a) / bpow radix2 (-1074))) as [U _]. set (N := Z.to_nat (up (Rabs (C - B2R a) / bpow radix2 (-1074)))).
  assert (HN : Rabs (C - B2R a) <= INR N * bpow radix2 (-1074)).
  { assert (P : 0 < bpow radix2 (-1074)) by apply bpow_gt_0. assert (Q : 0 <= Rabs (C - B2R a) / bpow radix2 (-1074)) by (apply Rdiv_le_0_compat || (apply Rmult_le_pos; [apply Rabs_pos|left; now apply Rinv_0_lt_compat])).
    assert (Z0 : (0 <= up (Rabs (C - B2R a) / bpow radix2 (-1074)))%Z) by (apply le_IZR; lra). unfold N. rewrite INR_IZR_INZ, Z2Nat.id by exact Z0.
    apply Rmult_le_reg_r with (/ bpow radix2 (-1074)); [now apply Rinv_0_lt_compat|]. rewrite Rmult_assoc, Rinv_r, Rmult_1_r by lra. unfold Rdiv in U. lra. }
  destruct (G N a Fa HN) as [(l & R & NL & S & _ & W & BG)|(l & w & T & S & _ & W & ST & NR)].
  - left. exists l. split; [intros l'; split; [intros R'; eapply run_det; eassumption|intros ->; exact R]|]. repeat (split; [assumption|]). exact BG.
  - right. exists l, w. repeat (split; [assumption|]). exact NR.
Qed.
Lemma ltb_not_leb (x y : F) : Bltb x y = true -> Bleb y x = false.
Proof.
  intros H. destruct (is_finite x) eqn:Fx, (is_finite y) eqn:Fy.
  - rewrite ltb_F in H by assumption. rewrite leb_F by assumption. apply Rle_bool_false. now destruct (Rlt_bool_spec (B2R x) (B2R y)).
  - destruct y as [|[]| |]; try discriminate Fy; destruct x as [[]|[]| |[] ? ? ?]; try discriminate Fx; try discriminate H; reflexivity.
  - destruct x as [|[]| |]; try discriminate Fx; destruct y as [[]|[]| |[] ? ? ?]; try discriminate Fy; try discriminate H; reflexivity.
  - destruct x as [|[]| |]; try discriminate Fx; destruct y as [|[]| |]; try discriminate Fy; try discriminate H; reflexivity.
Qed.
Lemma ltb_asym (x y : F) : Bltb x y = true -> Bltb y x = false.
Proof.
  intros H. destruct (is_finite x) eqn:Fx, (is_finite y) eqn:Fy.
  - rewrite ltb_F in H by assumption. rewrite ltb_F by assumption. apply Rlt_bool_false. destruct (Rlt_bool_spec (B2R x) (B2R y)); [lra|discriminate].
  - destruct y as [|[]| |]; try discriminate Fy; destruct x as [[]|[]| |[] ? ? ?]; try discriminate Fx; try discriminate H; reflexivity.
  - destruct x as [|[]| |]; try discriminate Fx; destruct y as [[]|[]| |[] ? ? ?]; try discriminate Fy; try discriminate H; reflexivity.
  - destruct x as [|[]| |]; try discriminate Fx; destruct y as [|[]| |]; try discriminate Fy; try discriminate H; reflexivity.
Qed.
Lemma next_on L (a s t : F) : Bltb (F_of_Z 0) t = true /\ Bltb a s = true \/ Bltb t (F_of_Z 0) = true /\ Bltb s a = true -> @f_range_next F (NumF L) a s t = Some (a, Bplus mode_NE a t).
Proof.
  intros H. unfold f_range_next. cbn [nltb nleb nadd NumF]. change (@nlit F (NumF L) 0 1) with (F_of_Z 0). destruct H as [[T0 H]|[T0 H]].
  - rewrite (ltb_not_leb _ _ H), (ltb_asym _ _ T0), andb_false_r. reflexivity.
  - rewrite (ltb_not_leb _ _ H), (ltb_asym _ _ T0), andb_false_r. reflexivity.
Qed.
(** C181: the other infinite cases, for numbers that are not NaN.  An end already passed: nothing.  A start that is
    infinite, away from the stop: that value forever, or NaN after it if the step is infinite too.  An infinite step
    from a finite start: the start alone. *)
Theorem C181_infinite_F : forall (L : libm) (start stop step : F), is_nan start = false -> is_nan stop = false -> is_nan step = false ->
  let ends_with l := forall l', @f_range_run F (NumF L) start stop step l' <-> l' = l in
  (Bltb (F_of_Z 0) step = true -> Bleb stop start = true -> ends_with []) /\ (Bltb step (F_of_Z 0) = true -> Bleb start stop = true -> ends_with []) /\
  (is_finite step = false -> is_finite start = true -> (step = B754_infinity false /\ Bltb start stop = true \/ step = B754_infinity true /\ Bltb stop start = true) -> ends_with [start]) /\
  (is_finite start = false -> (Bltb (F_of_Z 0) step = true /\ Bltb start stop = true \/ Bltb step (F_of_Z 0) = true /\ Bltb stop start = true) ->
     (forall l, ~ @f_range_run F (NumF L) start stop step l) /\
     forall n, @f_range_take F (NumF L) (S n) start stop step = start :: repeat (if is_finite step then start else B754_nan) n).
Proof.
  intros L a s t Na Ns Nt ew. split; [|split; [|split]].
  - intros T0 LE. assert (E : @f_range_next F (NumF L) a s t = None) by (unfold f_range_next; cbn [nltb nleb NumF]; change (@nlit F (NumF L) 0 1) with (F_of_Z 0); now rewrite T0, LE).
    intros l'. split; [intros R; inversion R; subst; [reflexivity|congruence]|intros ->; now constructor].
  - intros T0 LE. assert (E : @f_range_next F (NumF L) a s t = None). { unfold f_range_next. cbn [nltb nleb NumF]. change (@nlit F (NumF L) 0 1) with (F_of_Z 0). rewrite T0, LE. now destruct (_ && _)%bool. }
    intros l'. split; [intros R; inversion R; subst; [reflexivity|congruence]|intros ->; now constructor].
  - intros Ft Fa H.
    assert (E1 : @f_range_next F (NumF L) a s t = Some (a, Bplus mode_NE a t)) by (apply next_on; destruct H as [[-> H]|[-> H]]; [left|right]; now split).
    assert (E2 : Bplus mode_NE a t = t) by (destruct H as [[-> H]|[-> H]]; destruct a as [[]|[]| |[] ? ? ?]; try discriminate Fa; reflexivity).
    assert (E3 : @f_range_next F (NumF L) t s t = None) by (destruct H as [[-> H]|[-> H]]; destruct s as [[]|[]| |[] ? ? ?]; try discriminate Ns; reflexivity).
    rewrite E2 in E1. assert (R0 : @f_range_run F (NumF L) a s t [a]) by (econstructor; [exact E1|now constructor]). intros l'. split; [intros R; eapply run_det; eassumption|intros ->; exact R0].
  - intros Fa H. pose proof (next_on L a s t H) as E1. destruct (is_finite t) eqn:Ft.
    + assert (E2 : Bplus mode_NE a t = a) by (destruct a as [|[]| |]; try discriminate Fa; try discriminate Na; destruct t as [[]|[]| |[] ? ? ?]; try discriminate Ft; reflexivity).
      rewrite E2 in E1. destruct (stuck_forever F (NumF L) a s t E1) as [S1 S2]. split; [exact S2|]. intros n. rewrite S1. reflexivity.
    + assert (E2 : Bplus mode_NE a t = B754_nan).
      { destruct a as [|[]| |]; try discriminate Fa; try discriminate Na; destruct t as [|[]| |]; try discriminate Ft; try discriminate Nt; destruct s as [[]|[]| |[] ? ? ?]; destruct H as [[H1 H2]|[H1 H2]]; try discriminate H1; try discriminate H2; reflexivity. }
      rewrite E2 in E1. assert (E3 : @f_range_next F (NumF L) B754_nan s t = Some (B754_nan, B754_nan)).
      { unfold f_range_next. cbn [nltb nleb nadd NumF]. replace (Bleb s B754_nan) with false by now destruct s. rewrite andb_false_r. replace (Bleb B754_nan s) with false by reflexivity. rewrite andb_false_r. reflexivity. }
      destruct (stuck_forever F (NumF L) B754_nan s t E3) as [S1 S2]. split.
      * intros l R. inversion R as [? ? ? Q|? ? ? v a' l'' Q R'']; subst; rewrite E1 in Q; [discriminate|]. injection Q as <- <-. now apply (S2 l'').
      * intros n. cbn [f_range_take]. rewrite E1. now rewrite S1.
Qed.
(** C181: counting up by one with no end in sight: exact to 2^53, stuck there *)
Lemma count_step z : (0 <= z <= 2 ^ 53)%Z -> Bplus mode_NE (F_of_Z z) (F_of_Z 1) = F_of_Z (Z.min (z + 1) (2 ^ 53)).
Proof.
  intros H. destruct (Z.eq_dec z (2 ^ 53)) as [->|NE]; [apply B2SF_inj; vm_compute; reflexivity|]. rewrite Z.min_l by lia.
  destruct (F_of_Z53 z ltac:(lia)) as [A1 A2]. destruct (F_of_Z53 (z + 1) ltac:(lia)) as [B1 B2]. destruct (F_of_Z_exact 1 eq_refl) as [C1 C2].
  assert (E : B2R (F_of_Z z) + B2R (F_of_Z 1) = IZR (z + 1)) by (rewrite A1, C1, plus_IZR; reflexivity).
  destruct (F_add_exact (F_of_Z z) (F_of_Z 1) (IZR (2 ^ 53)) A2 C2) as [D1 D2].
  - rewrite E. apply fmt_Z53. lia.
  - rewrite E, <- abs_IZR. apply IZR_le. lia.
  - apply IZR_le. vm_compute. discriminate.
  - rewrite E in D1. assert (NZ : IZR (z + 1) <> 0) by (apply (IZR_neq _ 0); lia).
    apply B2R_inj; [apply is_finite_strict_B2R; now rewrite D1|apply is_finite_strict_B2R; now rewrite B1|now rewrite D1, B1].
Qed.
Theorem C181_counting_F : forall (L : libm) (n : nat),
  @f_range_take F (NumF L) n (F_of_Z 0) (B754_infinity false) (F_of_Z 1) = map (fun i => F_of_Z (Z.min (Z.of_nat i) (2 ^ 53))) (seq 0 n).
Proof.
  intros L n. assert (G : forall n k, @f_range_take F (NumF L) n (F_of_Z (Z.min (Z.of_nat k) (2 ^ 53))) (B754_infinity false) (F_of_Z 1) = map (fun i => F_of_Z (Z.min (Z.of_nat i) (2 ^ 53))) (seq k n)).
  { clear n. induction n as [|n IH]; intros k; [reflexivity|]. cbn [f_range_take seq map]. set (z := Z.min (Z.of_nat k) (2 ^ 53)). assert (Hz : (0 <= z <= 2 ^ 53)%Z) by (unfold z; lia).
    destruct (F_of_Z53 z ltac:(lia)) as [A1 A2]. destruct (F_of_Z_exact 1 eq_refl) as [C1 C2].
    assert (E : @f_range_next F (NumF L) (F_of_Z z) (endless_stop (F_of_Z 1)) (F_of_Z 1) = Some (F_of_Z z, Bplus mode_NE (F_of_Z z) (F_of_Z 1))) by (apply next_inf; [exact A2|exact C2|rewrite C1; lra]).
    change (endless_stop (F_of_Z 1)) with (B754_infinity false : F) in E. rewrite E, count_step by exact Hz. f_equal. replace (Z.min (z + 1) (2 ^ 53)) with (Z.min (Z.of_nat (S k)) (2 ^ 53)) by (unfold z; lia). apply IH. }
  apply (G n 0%nat).
Qed.
(** counting up by one with no end in sight gets stuck at 2^53 *)
Example C181_infinite_nonvacuous : is_finite (F_of_Z (2 ^ 53)) = true /\ is_finite (F_of_Z 1) = true /\ B2R (F_of_Z 1) <> 0 /\ endless_stop (F_of_Z 1) = B754_infinity false /\ Rabs (B2R (F_of_Z 1)) < bpow radix2 970 /\
  (forall L : libm, forall n, @f_range_take F (NumF L) n (F_of_Z (2 ^ 53)) (B754_infinity false) (F_of_Z 1) = repeat (F_of_Z (2 ^ 53)) n) /\
  Bltb (F_of_Z 0) (B754_infinity false) = true /\ Bltb (B754_infinity true : F) (F_of_Z 0) = true.
Proof.
  destruct (F_of_Z_exact 1 eq_refl) as [E1 E2]. split; [reflexivity|]. split; [reflexivity|]. rewrite E1. split; [lra|]. split; [reflexivity|]. split.
  { rewrite Rabs_pos_eq by lra. change 1 with (bpow radix2 0). apply bpow_lt. lia. }
  split; [|split; reflexivity]. intros L. apply stuck_forever. rewrite next_on by (left; split; vm_compute; reflexivity). do 2 f_equal. apply B2SF_inj. vm_compute. reflexivity.
Qed.
