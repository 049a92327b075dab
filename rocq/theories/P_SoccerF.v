(** * P_SoccerF: the motion formulas in doubles (C147, C148) *)
From Coq Require Import ZArith List Bool String Reals Lra Lia Psatz.
From Flocq Require Import Core BinarySingleNaN.
From Verif Require Import Base Types NumR NumF R_Tac Spec Spec2 Abs M_Angle M_Vector M_Soccer
  L_Angle P_Vector P_Soccer P_AngleF L_Float P_Float P_Robust P_Hull2 P_VecF P_TrigF P_LineF P_MatF.
Import ListNotations.
Local Open Scope R_scope.

Notation fone := (F_of_Z 1).
Lemma one_F : B2R fone = 1 /\ is_finite fone = true. Proof. apply F_of_Z_exact. lia. Qed.
Lemma one_close : close 0 0 1 fone.
Proof. destruct one_F as [A B]. rewrite <- A at 1. apply close_exact; [exact B|]. rewrite A, Rabs_R1. change (bpow radix2 0) with 1. lra. Qed.

(** What is asked of the C library: powers of numbers in [0, 1] within 2^-52. *)
Definition pow_unit (L : libm) : Prop := forall (x : F) (n : nat), is_finite x = true -> 0 <= B2R x <= 1 -> (Z.of_nat n < 2 ^ 53)%Z ->
  let p := lm_pow L x (F_of_Z (Z.of_nat n)) in is_finite p = true /\ Rabs (B2R p - B2R x ^ n) <= bpow radix2 (-52).
(** a decay between 0 and 1 - 2^-g *)
Definition decay_ok (g : Z) (d : F) : Prop := is_finite d = true /\ 0 <= B2R d <= 1 - bpow radix2 (- g).

Lemma decay_close g d : decay_ok g d -> close 0 (bpow radix2 (-54)) (1 - B2R d) (Bminus mode_NE fone d) /\ bpow radix2 (- g) <= 1 - B2R d <= 1.
Proof.
  intros [A B]. split; [|lra]. destruct one_F as [E1 E2]. pose proof (bpow_gt_0 radix2 (- g)) as P. assert (H : Rabs (1 - B2R d) <= bpow radix2 0) by (change (bpow radix2 0) with 1; apply Rabs_le; lra).
  destruct (rnd_err _ 0 ltac:(lia) H) as [R1 R2]. destruct (F_sub fone d E2 A) as [S1 S2]; rewrite ?E1 in *.
  - apply (finite_lt 0); [lia|exact R2].
  - split; [exact S2|]. rewrite S1. split; [exact R2|exact R1].
Qed.
Lemma exponent_finite n : (Z.of_nat n < 2 ^ 53)%Z -> is_finite (F_of_Z (Z.of_nat n)) = true.
Proof. intros H. now destruct (F_of_Z_exact (Z.of_nat n) ltac:(lia)). Qed.
Lemma one_minus_pow L d n : pow_unit L -> is_finite d = true -> 0 <= B2R d <= 1 -> (Z.of_nat n < 2 ^ 53)%Z -> exists p, @npowi F (NumF L) d (Z.of_nat n) = Ok p /\
  close 1 (bpow radix2 (-51)) (1 - B2R d ^ n) (Bminus mode_NE fone p) /\ 0 <= 1 - B2R d ^ n <= 1.
Proof.
  intros PU A B H. destruct (PU d n A B H) as [P1 P2]. set (p := lm_pow L d (F_of_Z (Z.of_nat n))) in *.
  assert (E : @npowi F (NumF L) d (Z.of_nat n) = Ok p).
  { cbn [npowi NumF]. unfold F_powi. rewrite (exponent_finite n) by assumption. rewrite A. fold p. destruct p; try discriminate P1; reflexivity. }
  exists p. split; [exact E|]. assert (PW : 0 <= B2R d ^ n <= 1).
  { split; [apply pow_le, B|]. rewrite <- (pow1 n). apply pow_incr, B. }
  split; [|lra]. change (bpow radix2 (-52)) with (/ IZR (2 ^ 52)) in P2. apply Rabs_le_inv in P2. assert (U : / IZR (2 ^ 52) <= / 2) by (apply Rinv_le; [lra|apply IZR_le; cbn; lia]).
  destruct one_F as [E1 E2]. assert (X : Rabs (1 - B2R p) <= bpow radix2 1) by (change (bpow radix2 1) with 2; apply Rabs_le; lra).
  destruct (rnd_err _ 1 ltac:(lia) X) as [R1 R2]. destruct (F_sub fone p E2 P1) as [S1 S2]; rewrite ?E1 in *; [apply (finite_lt 1); [lia|exact R2]|].
  split; [exact S2|]. rewrite S1. split; [exact R2|]. apply Rabs_le_inv in R1. change (1 - 54)%Z with (-53)%Z in R1. change (bpow radix2 (-53)) with (/ IZR (2 ^ 53)) in R1. change (bpow radix2 (-51)) with (/ IZR (2 ^ 51)).
  change (2 ^ 52)%Z with 4503599627370496%Z in P2. change (2 ^ 53)%Z with 9007199254740992%Z in R1. change (2 ^ 51)%Z with 2251799813685248%Z. apply Rabs_le. lra.
Qed.
(** a number known within t over 1 - d *)
Lemma over_decay g k j t N x d : (0 <= g <= 40)%Z -> (-300 <= k <= 300)%Z -> decay_ok g d -> close j t N x -> Rabs N <= bpow radix2 k -> 0 <= t <= bpow radix2 (k - 40) ->
  exists z, F_div x (Bminus mode_NE fone d) = Ok z /\ close (k + g + 1) (2 * t * bpow radix2 g + bpow radix2 (k + 2 * g - 52)) (N / (1 - B2R d)) z /\ Rabs (N / (1 - B2R d)) <= bpow radix2 (k + g).
Proof.
  intros Hg Hk HD (X1 & _ & X3) HN Ht. destruct (decay_close g d HD) as ((D1 & _ & D3) & D4). set (D := 1 - B2R d) in *. pose proof (bpow_gt_0 radix2 (- g)) as PG. assert (PD : 0 < D) by lra.
  assert (AD : Rabs D = D) by (apply Rabs_pos_eq; lra).
  assert (IG : / D <= bpow radix2 g) by (replace (bpow radix2 g) with (/ bpow radix2 (- g)) by (rewrite bpow_opp, Rinv_inv; reflexivity); apply Rinv_le; lra).
  assert (Q : Rabs (N / D) <= bpow radix2 (k + g)).
  { unfold Rdiv. rewrite Rabs_mult, bpow_plus, (Rabs_pos_eq (/ D)) by (left; now apply Rinv_0_lt_compat). apply Rmult_le_compat; [apply Rabs_pos|left; now apply Rinv_0_lt_compat|exact HN|exact IG]. }
  assert (B1 : bpow radix2 (k + g) * bpow radix2 (-54) = bpow radix2 (k + g - 54)) by (rewrite <- bpow_plus; f_equal; lia).
  assert (B2 : bpow radix2 k <= bpow radix2 (k + g) * D) by (apply Rle_trans with (bpow radix2 (k + g) * bpow radix2 (- g)); [rewrite <- bpow_plus; apply bpow_le; lia|apply Rmult_le_compat_l; [apply bpow_ge_0|lra]]).
  assert (B3 : 16 * bpow radix2 (k + g - 54) <= bpow radix2 k) by (change 16 with (bpow radix2 4); rewrite <- bpow_plus; apply bpow_le; lia).
  assert (B4 : 16 * bpow radix2 (k - 40) <= bpow radix2 k) by (change 16 with (bpow radix2 4); rewrite <- bpow_plus; apply bpow_le; lia).
  assert (B5 : 2 * bpow radix2 (-54) <= bpow radix2 (- g)) by (rewrite <- bp2; apply bpow_le; lia).
  destruct (quot_close (k + g) t (bpow radix2 (-54)) N D (N / D) x (Bminus mode_NE fone d)) as (z & Z1 & Z2 & Z3 & Z4); try assumption; try lia; rewrite ?AD; try lra; [field; lra|].
  exists z. split; [exact Z1|]. split; [|exact Q]. split; [exact Z2|]. split; [replace (k + g + 1)%Z with (1 + (k + g))%Z by lia; exact Z4|]. eapply Rle_trans; [exact Z3|]. rewrite AD, B1.
  assert (T1 : 2 * (t + bpow radix2 (k + g - 54)) / D <= 2 * (t + bpow radix2 (k + g - 54)) * bpow radix2 g) by (apply Rmult_le_compat_l; [pose proof (bpow_ge_0 radix2 (k + g - 54)); lra|exact IG]).
  assert (T2 : bpow radix2 (k + g - 54) * bpow radix2 g = bpow radix2 (k + 2 * g - 54)) by (rewrite <- bpow_plus; f_equal; lia).
  assert (T3 : bpow radix2 (k + g - 53) <= 2 * bpow radix2 (k + 2 * g - 54)) by (rewrite <- bp2; apply bpow_le; lia).
  assert (T4 : bpow radix2 (k + 2 * g - 52) = 4 * bpow radix2 (k + 2 * g - 54)) by (change 4 with (bpow radix2 2); rewrite <- bpow_plus; f_equal; lia).
  rewrite T4. rewrite Rmult_assoc, Rmult_plus_distr_r, T2 in T1. lra.
Qed.

Section Coast.
  Variables (L : libm) (g k : Z) (decay : F).
  Hypothesis Hg : (0 <= g <= 40)%Z.
  Hypothesis Hk : (-200 <= k <= 200)%Z.
  Hypothesis HD : decay_ok g decay.
  Let d := B2R decay.
  Lemma d_range : 0 <= d <= 1 /\ d <> 1 /\ d < 1.
  Proof. destruct HD as [_ H]. pose proof (bpow_gt_0 radix2 (- g)). unfold d. repeat split; lra. Qed.
  (** the factor the velocity is multiplied with *)
  Lemma factor_close n : pow_unit L -> (Z.of_nat n < 2 ^ 53)%Z -> exists p z, @npowi F (NumF L) decay (Z.of_nat n) = Ok p /\ F_div (Bminus mode_NE fone p) (Bminus mode_NE fone decay) = Ok z /\
    close (g + 1) (bpow radix2 (2 * g - 49)) ((1 - d ^ n) / (1 - d)) z /\ Rabs ((1 - d ^ n) / (1 - d)) <= bpow radix2 g.
  Proof.
    intros PU Hn. destruct d_range as (D1 & D2 & D3). destruct (one_minus_pow L decay n PU (proj1 HD) D1 Hn) as (p & P1 & P2 & P3). fold d in P2, P3.
    assert (A : Rabs (1 - d ^ n) <= bpow radix2 0) by (change (bpow radix2 0) with 1; apply Rabs_le; lra).
    assert (B : 0 <= bpow radix2 (-51) <= bpow radix2 (0 - 40)) by (split; [apply bpow_ge_0|apply bpow_le; lia]).
    destruct (over_decay g 0 1 (bpow radix2 (-51)) _ _ decay Hg ltac:(lia) HD P2 A B) as (z & Z1 & Z2 & Z3). exists p, z. split; [exact P1|]. split; [exact Z1|]. split; [|exact Z3].
    eapply close_weaken; [|exact Z2]. assert (E1 : 2 * bpow radix2 (-51) * bpow radix2 g <= bpow radix2 (2 * g - 50)) by (rewrite <- bp2, <- bpow_plus; apply bpow_le; lia).
    assert (E2 : bpow radix2 (0 + 2 * g - 52) <= bpow radix2 (2 * g - 50)) by (apply bpow_le; lia). replace (2 * g - 49)%Z with (1 + (2 * g - 50))%Z by lia. rewrite bp2. lra.
  Qed.
  Lemma coord_close n z x : close (g + 1) (bpow radix2 (2 * g - 49)) ((1 - d ^ n) / (1 - d)) z -> fbound k x ->
    close (k + (g + 1)) (bpow radix2 (k + 2 * g - 48)) (B2R x * ((1 - d ^ n) / (1 - d))) (Bmult mode_NE x z).
  Proof.
    intros C X. eapply close_weaken; [|apply close_mul; [lia|apply X|apply fb_close, X|exact C]]. rewrite Rmult_0_r, Rplus_0_r, <- bpow_plus.
    apply Rle_trans with (bpow radix2 (k + 2 * g - 49) + bpow radix2 (k + 2 * g - 49)); [apply Rplus_le_compat; apply bpow_le; lia|]. replace (k + 2 * g - 48)%Z with (1 + (k + 2 * g - 49))%Z by lia. rewrite bp2. lra.
  Qed.
End Coast.

(** C147: an object that coasts n steps *)
Theorem C147_coast_F : forall (L : libm) (g k : Z) (n : nat) (pos vel : vec F) (speed decay : F), pow_unit L -> (0 <= g <= 40)%Z -> (-200 <= k <= 200)%Z -> (Z.of_nat n < 2 ^ 53)%Z ->
  decay_ok g decay -> within k vel -> within (k + g) pos -> fbound k speed ->
  exists t q s, @inertia_n_step_travel F (NumF L) vel (Z.of_nat n) decay = Ok t /\ @inertia_n_step_point F (NumF L) pos vel (Z.of_nat n) decay = Ok q /\
    @inertia_n_step_distance F (NumF L) speed (Z.of_nat n) decay = Ok s /\
    coords_near (bpow radix2 (k + 2 * g - 48)) t (coast n (0, 0) (fpt vel) (B2R decay)) /\
    coords_near (bpow radix2 (k + 2 * g - 47)) q (coast n (fpt pos) (fpt vel) (B2R decay)) /\
    is_finite s = true /\ Rabs (B2R s - coasted_speed n (B2R speed) (B2R decay)) <= bpow radix2 (k + 2 * g - 48).
Proof.
  intros L g k n pos vel speed decay PU Hg Hk Hn HD (V1 & V2 & V3 & V4) (P1 & P2 & P3 & P4) SP.
  destruct (d_range g decay HD) as (D1 & D2 & D3). destruct (factor_close L g decay Hg HD n PU Hn) as (p & z & E1 & E2 & E3 & E4). set (d := B2R decay) in *. set (f := (1 - d ^ n) / (1 - d)) in *.
  assert (X := coord_close g k decay Hg Hk n z (vx vel) E3 (conj V1 V3)). assert (Y := coord_close g k decay Hg Hk n z (vy vel) E3 (conj V2 V4)). fold d f in X, Y.
  unfold inertia_n_step_point, inertia_n_step_travel, inertia_n_step_distance. rewrite E1. cbn [bind].
  change (@nlit F (NumF L) 1 1) with fone. cbn [nsub ndiv nmul NumF]. rewrite E2. cbn [bind].
  destruct (one_minus_pow L decay n PU (proj1 HD) D1 Hn) as (p' & Q1 & Q2 & Q3). rewrite E1 in Q1. injection Q1 as <-. fold d in Q2, Q3.
  assert (SN : close (k + 1) (bpow radix2 (k - 50)) (B2R speed * (1 - d ^ n)) (Bmult mode_NE speed (Bminus mode_NE fone p))).
  { eapply close_weaken; [|apply close_mul; [lia|apply SP|apply fb_close, SP|exact Q2]]. rewrite Rmult_0_r, Rplus_0_r, <- bpow_plus. apply Rle_trans with (bpow radix2 (k - 51) + bpow radix2 (k - 51)); [apply Rplus_le_compat; apply bpow_le; lia|]. replace (k - 50)%Z with (1 + (k - 51))%Z by lia. rewrite bp2. lra. }
  assert (SB : Rabs (B2R speed * (1 - d ^ n)) <= bpow radix2 k) by (rewrite Rabs_mult, (Rabs_pos_eq (1 - d ^ n)) by lra; rewrite <- (Rmult_1_r (bpow radix2 k)); apply Rmult_le_compat; try lra; [apply Rabs_pos|apply SP]).
  assert (ST : 0 <= bpow radix2 (k - 50) <= bpow radix2 (k - 40)) by (split; [apply bpow_ge_0|apply bpow_le; lia]).
  destruct (over_decay g k (k + 1) _ _ _ decay Hg ltac:(lia) HD SN SB ST) as (s & S1 & (S2 & _ & S3) & S4). rewrite S1.
  eexists _, _, s. split; [reflexivity|]. split; [reflexivity|]. split; [reflexivity|].
  rewrite !coast_closed, series_closed by exact D2. fold f. fold d in S3. cbn [px py fst snd]. rewrite !Rplus_0_l.
  split; [|split; [|split; [exact S2|]]].
  - destruct X as (X1 & _ & X2), Y as (Y1 & _ & Y2). split; [exact X1|split; [exact Y1|split; [exact X2|exact Y2]]].
  - assert (G : forall c v : F, is_finite c = true -> Rabs (B2R c) <= bpow radix2 (k + g) -> forall w, close (k + (g + 1)) (bpow radix2 (k + 2 * g - 48)) (B2R v * f) w ->
      is_finite (Bplus mode_NE c w) = true /\ Rabs (B2R (Bplus mode_NE c w) - (B2R c + B2R v * f)) <= bpow radix2 (k + 2 * g - 47)).
    { intros c v C1 C2 w W. assert (CC := close_up (k + g) (k + (g + 1)) _ _ _ ltac:(lia) (close_exact (k + g) c C1 C2)). destruct (close_add (k + (g + 1)) _ _ _ _ _ _ ltac:(lia) CC W) as (A1 & _ & A2). split; [exact A1|]. eapply Rle_trans; [exact A2|].
      assert (bpow radix2 (k + (g + 1) + 1 - 54) <= bpow radix2 (k + 2 * g - 48)) by (apply bpow_le; lia). replace (k + 2 * g - 47)%Z with (1 + (k + 2 * g - 48))%Z by lia. rewrite bp2. lra. }
    destruct (G (vx pos) (vx vel) P1 P3 _ X) as [A1 A2]. destruct (G (vy pos) (vy vel) P2 P4 _ Y) as [B1 B2]. split; [exact A1|split; [exact B1|split; [exact A2|exact B2]]].
  - eapply Rle_trans; [exact S3|]. assert (T1 : 2 * bpow radix2 (k - 50) * bpow radix2 g <= bpow radix2 (k + 2 * g - 49)) by (rewrite <- bp2, <- bpow_plus; apply bpow_le; lia).
    assert (T2 : bpow radix2 (k + 2 * g - 52) <= bpow radix2 (k + 2 * g - 49)) by (apply bpow_le; lia). replace (k + 2 * g - 48)%Z with (1 + (k + 2 * g - 49))%Z by lia. rewrite bp2. lra.
Qed.

(** C147: the rest position, and the final speed of a dash *)
Theorem C147_final_F : forall (L : libm) (g k : Z) (pos vel : vec F) (speed decay : F), (0 <= g <= 40)%Z -> (-200 <= k <= 200)%Z ->
  decay_ok g decay -> within k vel -> within (k + g) pos -> fbound k speed -> let f := / (1 - B2R decay) in
  exists t q s, @inertia_final_travel F (NumF L) vel decay = Ok t /\ @inertia_final_point F (NumF L) pos vel decay = Ok q /\ @inertia_final_distance F (NumF L) speed decay = Ok s /\
    coords_near (bpow radix2 (k + 2 * g - 52)) t (px (fpt vel) * f, py (fpt vel) * f) /\
    coords_near (bpow radix2 (k + 2 * g - 50)) q (px (fpt pos) + px (fpt vel) * f, py (fpt pos) + py (fpt vel) * f) /\
    is_finite s = true /\ Rabs (B2R s - B2R speed * f) <= bpow radix2 (k + 2 * g - 52).
Proof.
  intros L g k pos vel speed decay Hg Hk HD (V1 & V2 & V3 & V4) (P1 & P2 & P3 & P4) SP f.
  assert (Z0 : 0 <= 0 <= bpow radix2 (k - 40)) by (split; [lra|apply bpow_ge_0]).
  assert (G : forall x, fbound k x -> exists z, F_div x (Bminus mode_NE fone decay) = Ok z /\ close (k + g + 1) (bpow radix2 (k + 2 * g - 52)) (B2R x * f) z).
  { intros x X. destruct (over_decay g k k 0 (B2R x) x decay Hg ltac:(lia) HD (fb_close _ _ X) (proj2 X) Z0) as (z & A & B & _). exists z. split; [exact A|]. eapply close_weaken; [|exact B]. lra. }
  destruct (G _ (conj V1 V3)) as (tx & X1 & X2). destruct (G _ (conj V2 V4)) as (ty & Y1 & Y2). destruct (G _ SP) as (s & S1 & S2).
  unfold inertia_final_point, inertia_final_travel, inertia_final_distance, Vector2D_truediv. cbn [vx vy V]. change (@nlit F (NumF L) 1 1) with fone. cbn [nsub ndiv NumF].
  rewrite X1. cbn [bind]. rewrite Y1. cbn [bind]. rewrite S1. eexists _, _, s. split; [reflexivity|]. split; [reflexivity|]. split; [reflexivity|].
  split; [|split; [|split; apply S2]].
  - destruct X2 as (A1 & _ & A2), Y2 as (B1 & _ & B2). split; [exact A1|split; [exact B1|split; [exact A2|exact B2]]].
  - assert (H : forall c v w : F, is_finite c = true -> Rabs (B2R c) <= bpow radix2 (k + g) -> close (k + g + 1) (bpow radix2 (k + 2 * g - 52)) (B2R v * f) w ->
      is_finite (Bplus mode_NE c w) = true /\ Rabs (B2R (Bplus mode_NE c w) - (B2R c + B2R v * f)) <= bpow radix2 (k + 2 * g - 50)).
    { intros c v w C1 C2 W. assert (CC := close_up (k + g) (k + g + 1) _ _ _ ltac:(lia) (close_exact (k + g) c C1 C2)). destruct (close_add (k + g + 1) _ _ _ _ _ _ ltac:(lia) CC W) as (A1 & _ & A2). split; [exact A1|]. eapply Rle_trans; [exact A2|].
      assert (bpow radix2 (k + g + 1 + 1 - 54) <= bpow radix2 (k + 2 * g - 52)) by (apply bpow_le; lia). replace (k + 2 * g - 50)%Z with (2 + (k + 2 * g - 52))%Z by lia. rewrite (bpow_plus radix2 2). change (bpow radix2 2) with 4. pose proof (bpow_gt_0 radix2 (k + 2 * g - 52)). lra. }
    destruct (H (vx pos) (vx vel) tx P1 P3 X2) as [A1 A2]. destruct (H (vy pos) (vy vel) ty P2 P4 Y2) as [B1 B2]. split; [exact A1|split; [exact B1|split; [exact A2|exact B2]]].
Qed.
Theorem C147_final_speed_F : forall (L : libm) (g a b c : Z) (power rate effort decay : F), (0 <= g <= 40)%Z -> (-90 <= a <= 90)%Z -> (-90 <= b <= 90)%Z -> (-90 <= c <= 90)%Z ->
  decay_ok g decay -> fbound a power -> fbound b rate -> fbound c effort ->
  exists r, @final_speed F (NumF L) power rate effort decay = Ok r /\ is_finite r = true /\
    Rabs (B2R r - Rabs (B2R power) * B2R rate * B2R effort / (1 - B2R decay)) <= bpow radix2 (a + b + c + 2 * g - 50).
Proof.
  intros L g a b c power rate effort decay Hg Ha Hb Hc HD A B C. assert (PA : close a 0 (Rabs (B2R power)) (Babs power) /\ Rabs (Rabs (B2R power)) <= bpow radix2 a).
  { rewrite Rabs_Rabsolu. split; [|apply A]. rewrite <- B2R_Babs. apply close_exact; [rewrite is_finite_Babs; apply A|rewrite B2R_Babs, Rabs_Rabsolu; apply A]. }
  destruct PA as [PA1 PA2]. assert (P := close_mul a b _ _ _ _ _ _ ltac:(lia) PA2 PA1 (fb_close _ _ B)). assert (PB : Rabs (Rabs (B2R power) * B2R rate) <= bpow radix2 (a + b)) by (apply mul_abs; [exact PA2|apply B]).
  assert (Q := close_mul (a + b) c _ _ _ _ _ _ ltac:(lia) PB P (fb_close _ _ C)). assert (QB : Rabs (Rabs (B2R power) * B2R rate * B2R effort) <= bpow radix2 (a + b + c)) by (apply mul_abs; [exact PB|apply C]).
  assert (E : bpow radix2 (a + b) * 0 + bpow radix2 c * (bpow radix2 a * 0 + bpow radix2 b * 0 + bpow radix2 (a + b - 54)) + bpow radix2 (a + b + c - 54) = bpow radix2 (a + b + c - 53)).
  { replace (a + b + c - 53)%Z with (1 + (a + b + c - 54))%Z by lia. rewrite bp2. replace (a + b + c - 54)%Z with (c + (a + b - 54))%Z by lia. rewrite (bpow_plus radix2 c). ring. }
  rewrite E in Q. assert (T : 0 <= bpow radix2 (a + b + c - 53) <= bpow radix2 (a + b + c - 40)) by (split; [apply bpow_ge_0|apply bpow_le; lia]).
  destruct (over_decay g (a + b + c) _ _ _ _ decay Hg ltac:(lia) HD Q QB T) as (z & Z1 & (Z2 & _ & Z3) & _). exists z. split; [exact Z1|]. split; [exact Z2|]. eapply Rle_trans; [exact Z3|].
  assert (T1 : 2 * bpow radix2 (a + b + c - 53) * bpow radix2 g <= bpow radix2 (a + b + c + 2 * g - 52)) by (rewrite <- bp2, <- bpow_plus; apply bpow_le; lia).
  replace (a + b + c + 2 * g - 50)%Z with (2 + (a + b + c + 2 * g - 52))%Z by lia. rewrite (bpow_plus radix2 2). change (bpow radix2 2) with 4. pose proof (bpow_gt_0 radix2 (a + b + c + 2 * g - 52)). lra.
Qed.

(** C147, C148: the turn of a moving player; never more than asked for, never the other way, and less at higher speed *)
Lemma turn_denominator (i s : F) : is_finite i = true -> is_finite s = true -> 0 <= B2R i <= bpow radix2 400 -> 0 <= B2R s <= bpow radix2 400 ->
  let D := Bplus mode_NE fone (Bmult mode_NE i s) in is_finite D = true /\ B2R D = rnd64 (1 + rnd64 (B2R i * B2R s)) /\ 1 <= B2R D /\
  Rabs (B2R D - (1 + B2R i * B2R s)) <= bpow radix2 (-51) * (1 + B2R i * B2R s).
Proof.
  intros I S HI HS D. destruct one_F as [E1 E2]. set (X := B2R i * B2R s). assert (X0 : 0 <= X <= bpow radix2 800).
  { unfold X. split; [apply Rmult_le_pos; lra|]. change 800%Z with (400 + 400)%Z. rewrite bpow_plus. apply Rmult_le_compat; lra. }
  assert (XA : Rabs X <= bpow radix2 800) by (rewrite Rabs_pos_eq; lra). destruct (rnd_err X 800 ltac:(lia) XA) as [R1 R2]. destruct (F_mul i s I S) as [M1 M2]; [apply (finite_lt 800); [lia|exact R2]|]. fold X in M1.
  assert (M0 : 0 <= rnd64 X) by (rewrite <- (rnd_id 0) by apply generic_format_0; apply rnd_le; lra).
  assert (Y1 : Rabs (1 + rnd64 X) <= bpow radix2 801).
  { rewrite Rabs_pos_eq in R2 by exact M0. rewrite Rabs_pos_eq by lra. change 801%Z with (1 + 800)%Z. rewrite bp2. assert (1 <= bpow radix2 800) by (apply (bpow_le radix2 0); lia). lra. }
  destruct (rnd_err _ 801 ltac:(lia) Y1) as [Q1 Q2]. destruct (F_add fone (Bmult mode_NE i s) E2 M2) as [A1 A2]; rewrite ?E1, ?M1 in *; [apply (finite_lt 801); [lia|exact Q2]|]. fold D in A1, A2.
  split; [exact A2|]. split; [exact A1|]. assert (F1 : fmt64 1) by (change 1 with (bpow radix2 0); apply fmt_bpow; lia).
  split; [rewrite A1; apply Rle_trans with (rnd64 1); [right; symmetry; apply rnd_id; exact F1|apply rnd_le; lra]|]. rewrite A1.
  assert (S1 := rnd_rel X). assert (S2 := rnd_rel (1 + rnd64 X)). rewrite (Rabs_pos_eq X) in S1 by lra. rewrite (Rabs_pos_eq (1 + rnd64 X)) in S2 by lra.
  assert (U : u = / 9007199254740992) by reflexivity. assert (T : bpow radix2 (-1075) <= u * / 2) by (rewrite U; apply Rle_trans with (bpow radix2 (-54)); [apply bpow_le; lia|change (bpow radix2 (-54)) with (/ 18014398509481984); lra]).
  change (bpow radix2 (-51)) with (/ 2251799813685248). rewrite U in *. apply Rabs_le_inv in S1, S2. apply Rabs_le. lra.
Qed.
Theorem C147_effective_turn_F : forall (L : libm) (k : Z) (moment speed inertia : F), (-300 <= k <= 300)%Z -> fbound k moment ->
  is_finite speed = true -> is_finite inertia = true -> 0 <= B2R speed <= bpow radix2 400 -> 0 <= B2R inertia <= bpow radix2 400 ->
  exists r, @effective_turn F (NumF L) moment speed inertia = Ok r /\ is_finite r = true /\
    Rabs (B2R r - B2R moment / (1 + B2R inertia * B2R speed)) <= bpow radix2 (k - 49).
Proof.
  intros L k m s i Hk M S I HS HI. destruct (turn_denominator i s I S HI HS) as (D1 & _ & D2 & D3). set (D := 1 + B2R i * B2R s) in *.
  assert (PD : 1 <= D) by (unfold D; assert (0 <= B2R i * B2R s) by (apply Rmult_le_pos; lra); lra). assert (AD : Rabs D = D) by (apply Rabs_pos_eq; lra).
  change (bpow radix2 (-51)) with (/ 2251799813685248) in D3. pose proof (bpow_gt_0 radix2 k) as PK. assert (KD : 0 < bpow radix2 k * D) by (apply Rmult_lt_0_compat; lra).
  destruct (quot_close k 0 (/ 2251799813685248 * D) (B2R m) D (B2R m / D) m (Bplus mode_NE fone (Bmult mode_NE i s))) as (z & Z1 & Z2 & Z3 & _); try assumption; try lia; rewrite ?AD; try lra.
  { apply M. } { rewrite Rminus_eq_0, Rabs_R0. lra. } { field. lra. }
  { unfold Rdiv. rewrite Rabs_mult, (Rabs_pos_eq (/ D)) by (left; apply Rinv_0_lt_compat; lra). rewrite <- (Rmult_1_r (bpow radix2 k)). apply Rmult_le_compat; [apply Rabs_pos|left; apply Rinv_0_lt_compat; lra|apply M|]. rewrite <- Rinv_1. apply Rinv_le; lra. }
  exists z. split; [exact Z1|]. split; [exact Z2|]. eapply Rle_trans; [exact Z3|]. rewrite AD. replace (2 * (0 + bpow radix2 k * (/ 2251799813685248 * D)) / D) with (bpow radix2 k * (2 * / 2251799813685248)) by (field; lra).
  replace (k - 53)%Z with (k + -53)%Z by lia. replace (k - 49)%Z with (k + -49)%Z by lia. rewrite !bpow_plus. change (bpow radix2 (-53)) with (/ 9007199254740992). change (bpow radix2 (-49)) with (/ 562949953421312). rewrite <- Rmult_plus_distr_l. apply Rmult_le_compat_l; lra.
Qed.
Theorem C148_effective_turn_F : forall (L : libm) (moment speed speed' inertia : F), is_finite moment = true -> is_finite speed = true -> is_finite speed' = true -> is_finite inertia = true ->
  0 <= B2R speed <= B2R speed' -> B2R speed' <= bpow radix2 400 -> 0 <= B2R inertia <= bpow radix2 400 ->
  exists r r', @effective_turn F (NumF L) moment speed inertia = Ok r /\ @effective_turn F (NumF L) moment speed' inertia = Ok r' /\ is_finite r = true /\ is_finite r' = true /\
    Rabs (B2R r) <= Rabs (B2R moment) /\ 0 <= B2R r * B2R moment /\ Rabs (B2R r') <= Rabs (B2R r).
Proof.
  intros L m s s' i M S S' I H1 H2 HI.
  assert (G : forall t, is_finite t = true -> 0 <= B2R t <= bpow radix2 400 -> exists r, @effective_turn F (NumF L) m t i = Ok r /\ is_finite r = true /\ B2R r = rnd64 (B2R m / rnd64 (1 + rnd64 (B2R i * B2R t))) /\ 1 <= rnd64 (1 + rnd64 (B2R i * B2R t)) /\ Rabs (B2R r) <= Rabs (B2R m)).
  { intros t T HT. destruct (turn_denominator i t I T HI HT) as (D1 & D2 & D3 & _). unfold effective_turn. change (@nlit F (NumF L) 1 1) with fone. cbn [ndiv nadd nmul NumF]. unfold F_div. set (D := Bplus mode_NE fone (Bmult mode_NE i t)) in *. rewrite <- D2.
    assert (NZ : F_is_zero D = false) by (unfold F_is_zero; rewrite eqb_F by (try assumption; reflexivity); replace (B2R (F_of_Z 0)) with 0 by reflexivity; rewrite Req_bool_false; [reflexivity|lra]). rewrite NZ.
    assert (Q : Rabs (B2R m / B2R D) <= Rabs (B2R m)).
    { unfold Rdiv. rewrite Rabs_mult, (Rabs_pos_eq (/ B2R D)) by (left; apply Rinv_0_lt_compat; lra). rewrite <- (Rmult_1_r (Rabs (B2R m))) at 2. apply Rmult_le_compat_l; [apply Rabs_pos|]. rewrite <- Rinv_1. apply Rinv_le; lra. }
    assert (Q2 : Rabs (rnd64 (B2R m / B2R D)) <= Rabs (B2R m)) by (apply abs_round_le_generic; [apply FLT_exp_valid; reflexivity|apply valid_rnd_N|apply generic_format_abs, fmt_F|exact Q]).
    destruct (F_quot m D M) as [A1 A2]; [lra|eapply Rle_lt_trans; [exact Q2|apply abs_B2R_lt_emax]|]. eexists. split; [reflexivity|]. split; [exact A2|]. split; [exact A1|]. split; [exact D3|]. rewrite A1. exact Q2. }
  destruct (G s S ltac:(lra)) as (r & R1 & R2 & R3 & R4 & R5). destruct (G s' S' ltac:(lra)) as (r' & R1' & R2' & R3' & R4' & R5'). exists r, r'. split; [exact R1|]. split; [exact R1'|]. split; [exact R2|]. split; [exact R2'|]. split; [exact R5|].
  assert (DD : rnd64 (1 + rnd64 (B2R i * B2R s)) <= rnd64 (1 + rnd64 (B2R i * B2R s'))) by (apply rnd_le; apply Rplus_le_compat_l; apply rnd_le; apply Rmult_le_compat_l; lra).
  set (D := rnd64 (1 + rnd64 (B2R i * B2R s))) in *. set (D' := rnd64 (1 + rnd64 (B2R i * B2R s'))) in *.
  assert (R0 : rnd64 0 = 0) by (apply rnd_id, generic_format_0). split.
  - rewrite R3. assert (0 < / D) by (apply Rinv_0_lt_compat; lra). destruct (Rle_dec 0 (B2R m)) as [P|P].
    + apply Rmult_le_pos; [|exact P]. rewrite <- R0. apply rnd_le. apply Rmult_le_pos; lra.
    + assert (rnd64 (B2R m / D) <= 0) by (rewrite <- R0; apply rnd_le; unfold Rdiv; nra). nra.
  - rewrite R3, R3'. assert (AB : forall x, Rabs (rnd64 x) = rnd64 (Rabs x)) by (intros x; symmetry; apply round_NE_abs; apply FLT_exp_valid; reflexivity). rewrite !AB. apply rnd_le. unfold Rdiv. rewrite !Rabs_mult. apply Rmult_le_compat_l; [apply Rabs_pos|].
    rewrite !Rabs_pos_eq by (left; apply Rinv_0_lt_compat; lra). apply Rinv_le; lra.
Qed.

(** ** Rounded values, step by step *)
Definition fval (j : Z) (v : R) (x : F) : Prop := is_finite x = true /\ B2R x = v /\ Rabs v <= bpow radix2 j.
Lemma fval_fb j x : fbound j x -> fval j (B2R x) x.
Proof. intros [A B]. split; [exact A|split; [reflexivity|exact B]]. Qed.
Lemma fval_add i j a b x y : (-500 <= i <= 900)%Z -> (j <= i)%Z -> fval i a x -> fval j b y -> fval (i + 1) (rnd64 (a + b)) (Bplus mode_NE x y).
Proof.
  intros H HJ (X1 & X2 & X3) (Y1 & Y2 & Y3). assert (JB : bpow radix2 j <= bpow radix2 i) by now apply bpow_le. assert (S : Rabs (a + b) <= bpow radix2 (i + 1)) by (rewrite Z.add_comm, bp2; eapply Rle_trans; [apply Rabs_triang|lra]).
  destruct (rnd_err _ (i + 1) ltac:(lia) S) as [_ R]. destruct (F_add x y X1 Y1) as [A1 A2]; rewrite ?X2, ?Y2 in *; [apply (finite_lt (i + 1)); [lia|exact R]|]. split; [exact A2|split; [exact A1|exact R]].
Qed.
Lemma fval_sub i j a b x y : (-500 <= i <= 900)%Z -> (j <= i)%Z -> fval i a x -> fval j b y -> fval (i + 1) (rnd64 (a - b)) (Bminus mode_NE x y).
Proof.
  intros H HJ (X1 & X2 & X3) (Y1 & Y2 & Y3). assert (JB : bpow radix2 j <= bpow radix2 i) by now apply bpow_le. assert (S : Rabs (a - b) <= bpow radix2 (i + 1)) by (rewrite Z.add_comm, bp2; apply Rabs_le; apply Rabs_le_inv in X3, Y3; lra).
  destruct (rnd_err _ (i + 1) ltac:(lia) S) as [_ R]. destruct (F_sub x y X1 Y1) as [A1 A2]; rewrite ?X2, ?Y2 in *; [apply (finite_lt (i + 1)); [lia|exact R]|]. split; [exact A2|split; [exact A1|exact R]].
Qed.
Lemma fval_mul i j a b x y : (-900 <= i + j <= 900)%Z -> fval i a x -> fval j b y -> fval (i + j) (rnd64 (a * b)) (Bmult mode_NE x y).
Proof.
  intros H (X1 & X2 & X3) (Y1 & Y2 & Y3). assert (S := mul_abs _ _ _ _ X3 Y3).
  destruct (rnd_err _ (i + j) ltac:(lia) S) as [_ R]. destruct (F_mul x y X1 Y1) as [A1 A2]; rewrite ?X2, ?Y2 in *; [apply (finite_lt (i + j)); [lia|exact R]|]. split; [exact A2|split; [exact A1|exact R]].
Qed.
Lemma fval_div i h a b x y : (-900 <= i + h <= 900)%Z -> fval i a x -> is_finite y = true -> B2R y = b -> bpow radix2 (- h) <= b -> exists z, F_div x y = Ok z /\ fval (i + h) (rnd64 (a / b)) z.
Proof.
  intros H (X1 & X2 & X3) Y1 Y2 Y3. pose proof (bpow_gt_0 radix2 (- h)) as P. assert (I : Rabs (/ b) <= bpow radix2 h).
  { rewrite Rabs_pos_eq by (left; apply Rinv_0_lt_compat; lra). replace (bpow radix2 h) with (/ bpow radix2 (- h)) by (rewrite bpow_opp, Rinv_inv; reflexivity). apply Rinv_le; lra. }
  assert (S := mul_abs _ _ _ _ X3 I). change (Rabs (a / b) <= bpow radix2 (i + h)) in S. destruct (rnd_err _ (i + h) ltac:(lia) S) as [_ R].
  assert (NZ : F_is_zero y = false) by (unfold F_is_zero; rewrite eqb_F by (try assumption; reflexivity); replace (B2R (F_of_Z 0)) with 0 by reflexivity; rewrite Req_bool_false; [reflexivity|lra]).
  destruct (F_quot x y X1) as [A1 A2]; rewrite ?X2, ?Y2 in *; [lra|apply (finite_lt (i + h)); [lia|exact R]|].
  eexists. unfold F_div. rewrite NZ. split; [reflexivity|]. split; [exact A2|split; [exact A1|exact R]].
Qed.
Lemma fval_abs j v x : fval j v x -> fval j (Rabs v) (Babs x).
Proof. intros (A & B & C). split; [now rewrite is_finite_Babs|]. split; [now rewrite B2R_Babs, B|]. now rewrite Rabs_Rabsolu. Qed.
Lemma fval_Z j n : (0 <= j <= 52)%Z -> (Z.abs n <= 2 ^ j)%Z -> fval j (IZR n) (F_of_Z n).
Proof. intros H1 H2. destruct (fbound_Z j n H1 H2) as [A B]. assert (2 ^ j <= 2 ^ 52)%Z by (apply Z.pow_le_mono_r; lia). destruct (F_of_Z_exact n ltac:(lia)) as [E _]. split; [exact A|]. split; [exact E|]. now rewrite <- E. Qed.
Lemma quarter_F L : fval 0 (/ 4) (@nlit F (NumF L) 1 4).
Proof. split; [reflexivity|]. split; [vm_compute; lra|]. change (bpow radix2 0) with 1. rewrite Rabs_pos_eq; lra. Qed.

(** kick_rate *)
Definition kick_val (dist dir power ball player margin : R) : R :=
  rnd64 (power * rnd64 (rnd64 (1 - rnd64 (rnd64 (/ 4 * Rabs dir) / 180)) - rnd64 (rnd64 (/ 4 * rnd64 (rnd64 (dist - ball) - player)) / margin))).
Definition kick_ok (dist dir power ball player margin : F) : Prop :=
  fbound 100 dist /\ fbound 100 dir /\ fbound 100 power /\ fbound 100 ball /\ fbound 100 player /\ is_finite margin = true /\ bpow radix2 (-100) <= B2R margin.
Lemma kick_value L dist dir power ball player margin : kick_ok dist dir power ball player margin ->
  exists r, @kick_rate F (NumF L) dist dir power ball player margin = Ok r /\ is_finite r = true /\ B2R r = kick_val (B2R dist) (B2R dir) (B2R power) (B2R ball) (B2R player) (B2R margin).
Proof.
  intros (A & B & C & D & E & G & K). unfold kick_rate. change (@nlit F (NumF L) 180 1) with (F_of_Z 180). change (@nlit F (NumF L) 1 1) with fone. cbn [nabs nsub nmul ndiv NumF].
  assert (V1 := fval_mul 0 100 _ _ _ _ ltac:(lia) (quarter_F L) (fval_abs _ _ _ (fval_fb _ _ B))).
  destruct (F_of_Z_exact 180 ltac:(lia)) as [N1 N2]. destruct (fval_div (0 + 100) 0 _ 180 _ (F_of_Z 180) ltac:(lia) V1 N2 N1) as (q1 & Q1 & Q2); [change (bpow radix2 (- 0)) with 1; lra|]. rewrite Q1. cbn [bind].
  assert (V2 := fval_sub 100 100 _ _ _ _ ltac:(lia) ltac:(lia) (fval_fb _ _ A) (fval_fb _ _ D)). assert (V3 := fval_sub (100 + 1) 100 _ _ _ _ ltac:(lia) ltac:(lia) V2 (fval_fb _ _ E)).
  assert (V4 := fval_mul 0 (100 + 1 + 1) _ _ _ _ ltac:(lia) (quarter_F L) V3). destruct (fval_div (0 + (100 + 1 + 1)) 100 _ _ _ margin ltac:(lia) V4 G eq_refl K) as (q2 & Q3 & Q4). rewrite Q3. cbn [bind].
  assert (O : fval 100 1 fone) by (destruct one_F as [O1 O2]; split; [exact O2|split; [exact O1|rewrite Rabs_R1; apply (bpow_le radix2 0); lia]]).
  assert (V5 := fval_sub 100 (0 + 100 + 0) _ _ _ _ ltac:(lia) ltac:(lia) O Q2). assert (V6 : fval 202 (rnd64 (1 - rnd64 (rnd64 (/ 4 * Rabs (B2R dir)) / 180))) (Bminus mode_NE fone q1)).
  { destruct V5 as (U1 & U2 & U3). split; [exact U1|split; [exact U2|eapply Rle_trans; [exact U3|apply bpow_le; lia]]]. }
  assert (V7 := fval_sub 202 (0 + (100 + 1 + 1) + 100) _ _ _ _ ltac:(lia) ltac:(lia) V6 Q4). assert (V8 := fval_mul 100 (202 + 1) _ _ _ _ ltac:(lia) (fval_fb _ _ C) V7). destruct V8 as (W1 & W2 & _).
  eexists. split; [reflexivity|]. split; [exact W1|exact W2].
Qed.
(** C148: farther or more sideways never kicks better; at most the full rate from the contact distance on *)
Theorem C148_kick_rate_F : forall (L : libm) (dist dir dist' dir' power ball player margin : F), kick_ok dist dir power ball player margin -> kick_ok dist' dir' power ball player margin -> 0 <= B2R power ->
  exists r r', @kick_rate F (NumF L) dist dir power ball player margin = Ok r /\ @kick_rate F (NumF L) dist' dir' power ball player margin = Ok r' /\ is_finite r = true /\ is_finite r' = true /\
    (B2R dist <= B2R dist' -> Rabs (B2R dir) <= Rabs (B2R dir') -> B2R r' <= B2R r) /\
    (B2R ball + B2R player <= B2R dist -> B2R r <= B2R power).
Proof.
  intros L dist dir dist' dir' power ball player margin K K' HP. destruct (kick_value L _ _ _ _ _ _ K) as (r & R1 & R2 & R3). destruct (kick_value L _ _ _ _ _ _ K') as (r' & R1' & R2' & R3').
  exists r, r'. split; [exact R1|]. split; [exact R1'|]. split; [exact R2|]. split; [exact R2'|]. destruct K as (_ & _ & _ & _ & _ & _ & KM). pose proof (bpow_gt_0 radix2 (-100)) as PM. assert (IM : 0 < / B2R margin) by (apply Rinv_0_lt_compat; lra). unfold kick_val in *. split.
  - intros HD HA. rewrite R3, R3'. apply rnd_le. apply Rmult_le_compat_l; [exact HP|]. apply rnd_le. apply Rplus_le_compat.
    + apply rnd_le. apply Rplus_le_compat_l, Ropp_le_contravar. apply rnd_le. apply Rmult_le_compat_r; [lra|]. apply rnd_le. lra.
    + apply Ropp_le_contravar. apply rnd_le. apply Rmult_le_compat_r; [lra|]. apply rnd_le. apply Rmult_le_compat_l; [lra|]. apply rnd_le. apply Rplus_le_compat_r. apply rnd_le. lra.
  - intros HD. rewrite R3. assert (R0 : rnd64 0 = 0) by (apply rnd_id, generic_format_0). assert (P0 : forall x, 0 <= x -> 0 <= rnd64 x) by (intros x H; rewrite <- R0; now apply rnd_le).
    assert (F1 : rnd64 1 = 1) by (apply rnd_id; change 1 with (bpow radix2 0); apply fmt_bpow; lia).
    assert (A1 : 0 <= rnd64 (rnd64 (/ 4 * Rabs (B2R dir)) / 180)) by (apply P0; apply Rmult_le_pos; [apply P0; pose proof (Rabs_pos (B2R dir)); lra|lra]).
    assert (A2 : B2R player <= rnd64 (B2R dist - B2R ball)) by (rewrite <- (rnd_id (B2R player)) by apply fmt_F; apply rnd_le; lra).
    assert (A3 : 0 <= rnd64 (rnd64 (/ 4 * rnd64 (rnd64 (B2R dist - B2R ball) - B2R player)) / B2R margin)) by (apply P0; apply Rmult_le_pos; [apply P0, Rmult_le_pos; [lra|apply P0; lra]|lra]).
    assert (A4 : rnd64 (1 - rnd64 (rnd64 (/ 4 * Rabs (B2R dir)) / 180)) <= 1) by (apply Rle_trans with (rnd64 1); [apply rnd_le; lra|lra]).
    assert (LE1 : forall x, x <= 1 -> rnd64 x <= 1) by (intros x H; apply Rle_trans with (rnd64 1); [now apply rnd_le|lra]). assert (Y : rnd64 (rnd64 (1 - rnd64 (rnd64 (/ 4 * Rabs (B2R dir)) / 180)) - rnd64 (rnd64 (/ 4 * rnd64 (rnd64 (B2R dist - B2R ball) - B2R player)) / B2R margin)) <= 1) by (apply LE1; lra).
    apply Rle_trans with (rnd64 (B2R power * 1)); [|right; rewrite Rmult_1_r; apply rnd_id, fmt_F]. apply rnd_le. apply Rmult_le_compat_l; [exact HP|exact Y].
Qed.

(** C147: kick_rate and dir_rate *)
Lemma fval_close j v x : fval j v x -> close j 0 v x.
Proof. intros (A & B & C). subst v. now apply close_exact. Qed.
Theorem C147_kick_rate_F : forall (L : libm) (k h p : Z) (dist dir power ball player margin : F), (-100 <= k <= 100)%Z -> (-100 <= h <= 100)%Z -> (-100 <= p <= 100)%Z -> (1 <= k + h)%Z ->
  fbound k dist -> fbound k ball -> fbound k player -> is_finite dir = true -> Rabs (B2R dir) <= 180 -> fbound p power -> is_finite margin = true -> bpow radix2 (- h) <= B2R margin ->
  exists r, @kick_rate F (NumF L) dist dir power ball player margin = Ok r /\ is_finite r = true /\
    Rabs (B2R r - B2R power * (1 - Rabs (B2R dir) / 720 - (B2R dist - B2R ball - B2R player) / (4 * B2R margin))) <= bpow radix2 (p + k + h - 48).
Proof.
  intros L k h p dist dir power ball player margin Hk Hh Hp HKH A B C D1 D2 P M1 M2. unfold kick_rate. change (@nlit F (NumF L) 180 1) with (F_of_Z 180). change (@nlit F (NumF L) 1 1) with fone. cbn [nabs nsub nmul ndiv NumF].
  assert (QF := fval_close _ _ _ (quarter_F L)). assert (Q4 : Rabs (/ 4) <= bpow radix2 0) by (change (bpow radix2 0) with 1; rewrite Rabs_pos_eq; lra).
  assert (DA : close 8 0 (Rabs (B2R dir)) (Babs dir)) by (rewrite <- B2R_Babs; apply close_exact; [now rewrite is_finite_Babs|rewrite B2R_Babs, Rabs_Rabsolu; change (bpow radix2 8) with 256; lra]).
  assert (X1 := close_mul 0 8 _ _ _ _ _ _ ltac:(lia) Q4 QF DA). destruct X1 as (X11 & _ & X13). replace (bpow radix2 0 * 0 + bpow radix2 8 * 0 + bpow radix2 (0 + 8 - 54)) with (/ 70368744177664) in X13 by (change (bpow radix2 (0 + 8 - 54)) with (/ 70368744177664); ring).
  destruct (F_of_Z_exact 180 ltac:(lia)) as [N1 N2]. pose proof (Rabs_pos (B2R dir)) as DP.
  destruct (quot_close 0 (/ 70368744177664) 0 (/ 4 * Rabs (B2R dir)) 180 (Rabs (B2R dir) / 720) (Bmult mode_NE (@nlit F (NumF L) 1 4) (Babs dir)) (F_of_Z 180)) as (q1 & E1 & E2 & E3 & E4); try assumption; try lia; rewrite ?(Rabs_pos_eq 180) by lra; change (bpow radix2 0) with 1; try lra.
  { rewrite N1, Rminus_eq_0, Rabs_R0. lra. } { rewrite Rabs_pos_eq; lra. }
  rewrite E1. cbn [bind]. rewrite (Rabs_pos_eq 180) in E3 by lra. change (bpow radix2 0) with 1 in E3. change (0 - 53)%Z with (-53)%Z in E3. change (bpow radix2 (-53)) with (/ 9007199254740992) in E3.
  assert (C1 : close 1 (3 * / 9007199254740992) (Rabs (B2R dir) / 720) q1) by (split; [exact E2|split; [exact E4|lra]]).
  assert (X2 := close_sub 1 _ _ _ _ _ _ ltac:(lia) (close_up 0 1 _ _ _ ltac:(lia) one_close) C1).
  set (e := bpow radix2 (k + h - 53)). assert (PE : 0 < e) by apply bpow_gt_0.
  assert (X3 : close (k + h + 1) (4 * e) (1 - Rabs (B2R dir) / 720) (Bminus mode_NE fone q1)).
  { apply (close_up (1 + 1)); [lia|]. eapply close_weaken; [|exact X2]. change (1 + 1 - 54)%Z with (-52)%Z. change (bpow radix2 (-52)) with (/ 4503599627370496). assert (bpow radix2 (1 + -53) <= e) by (unfold e; apply bpow_le; lia). rewrite bp2 in H. change (bpow radix2 (-53)) with (/ 9007199254740992) in H. lra. }
  assert (Y1 := close_sub k _ _ _ _ _ _ ltac:(lia) (fb_close _ _ A) (fb_close _ _ B)). assert (Y2 := close_sub (k + 1) _ _ _ _ _ _ ltac:(lia) Y1 (close_up k (k + 1) _ _ _ ltac:(lia) (fb_close _ _ C))).
  assert (Y3 := close_mul 0 (k + 1 + 1) _ _ _ _ _ _ ltac:(lia) Q4 QF Y2). set (g := bpow radix2 (k - 53)). assert (PG : 0 < g) by apply bpow_gt_0.
  assert (EG : bpow radix2 0 * (0 + 0 + bpow radix2 (k + 1 - 54) + 0 + bpow radix2 (k + 1 + 1 - 54)) + bpow radix2 (k + 1 + 1) * 0 + bpow radix2 (0 + (k + 1 + 1) - 54) = 5 * g).
  { replace (k + 1 - 54)%Z with (k - 53)%Z by lia. replace (k + 1 + 1 - 54)%Z with (1 + (k - 53))%Z by lia. replace (0 + (k + 1 + 1) - 54)%Z with (1 + (k - 53))%Z by lia. rewrite !bp2. fold g. change (bpow radix2 0) with 1. ring. }
  rewrite EG in Y3. destruct Y3 as (Y31 & _ & Y33). set (N := B2R dist - B2R ball - B2R player) in *. set (m := B2R margin) in *. pose proof (bpow_gt_0 radix2 (- h)) as PH. assert (PM : 0 < m) by lra.
  assert (NB : Rabs (/ 4 * N) <= bpow radix2 k) by (unfold N; destruct A as [_ A], B as [_ B], C as [_ C]; apply Rabs_le_inv in A, B, C; apply Rabs_le; lra).
  assert (IM : / m <= bpow radix2 h) by (replace (bpow radix2 h) with (/ bpow radix2 (- h)) by (rewrite bpow_opp, Rinv_inv; reflexivity); apply Rinv_le; lra).
  assert (KM : bpow radix2 k <= bpow radix2 (k + h) * m) by (apply Rle_trans with (bpow radix2 (k + h) * bpow radix2 (- h)); [rewrite <- bpow_plus; apply bpow_le; lia|apply Rmult_le_compat_l; [apply bpow_ge_0|exact M2]]).
  assert (GK : 16 * g <= bpow radix2 k) by (change 16 with (bpow radix2 4); unfold g; rewrite <- bpow_plus; apply bpow_le; lia).
  assert (EH : g * bpow radix2 h = e) by (unfold g, e; rewrite <- bpow_plus; f_equal; lia).
  destruct (quot_close (k + h) (5 * g) 0 (/ 4 * N) m (N / (4 * m)) (Bmult mode_NE (@nlit F (NumF L) 1 4) (Bminus mode_NE (Bminus mode_NE dist ball) player)) margin) as (q2 & F1 & F2 & F3 & F4); try assumption; try lia; rewrite ?(Rabs_pos_eq m) by lra; try lra.
  { unfold m. rewrite Rminus_eq_0, Rabs_R0. lra. } { field. lra. }
  { replace (N / (4 * m)) with (/ 4 * N * / m) by (field; lra). rewrite Rabs_mult, bpow_plus. apply Rmult_le_compat; [apply Rabs_pos|apply Rabs_pos|exact NB|rewrite Rabs_pos_eq; [exact IM|left; now apply Rinv_0_lt_compat]]. }
  rewrite F1. cbn [bind]. eexists. split; [reflexivity|]. rewrite (Rabs_pos_eq m) in F3 by lra.
  assert (F5 : close (k + h + 1) (11 * e) (N / (4 * m)) q2).
  { split; [exact F2|]. split; [replace (k + h + 1)%Z with (1 + (k + h))%Z by lia; exact F4|]. eapply Rle_trans; [exact F3|]. fold e. rewrite Rmult_0_r, Rplus_0_r. assert (2 * (5 * g) / m <= 2 * (5 * g) * bpow radix2 h) by (apply Rmult_le_compat_l; lra). replace (2 * (5 * g) * bpow radix2 h) with (10 * (g * bpow radix2 h)) in H by ring. rewrite EH in H. lra. }
  assert (X4 := close_sub (k + h + 1) _ _ _ _ _ _ ltac:(lia) X3 F5). replace (k + h + 1 + 1 - 54)%Z with (1 + (k + h - 53))%Z in X4 by lia. rewrite bp2 in X4. fold e in X4.
  assert (X5 := close_mul p (k + h + 1 + 1) _ _ _ _ _ _ ltac:(lia) (proj2 P) (fb_close _ _ P) X4). destruct X5 as (W1 & _ & W2). split; [exact W1|]. eapply Rle_trans; [exact W2|].
  replace (p + (k + h + 1 + 1) - 54)%Z with (p + (1 + (k + h - 53)))%Z by lia. replace (p + k + h - 48)%Z with (p + (5 + (k + h - 53)))%Z by lia. rewrite !(bpow_plus radix2 p), bp2, (bpow_plus radix2 5). fold e. change (bpow radix2 5) with 32. pose proof (bpow_gt_0 radix2 p).
  replace (bpow radix2 p * (4 * e + 11 * e + 2 * e) + bpow radix2 (k + h + 1 + 1) * 0 + bpow radix2 p * (2 * e)) with (bpow radix2 p * (19 * e)) by ring. apply Rmult_le_compat_l; lra.
Qed.
Theorem C147_dir_rate_F : forall (L : libm) (d back side : F), is_finite d = true -> fbound 0 back -> fbound 0 side ->
  let a := Rabs (B2R d) in a <= 180 ->
  exists r, @dir_rate F (NumF L) d back side = Ok r /\ is_finite r = true /\
    (a <= 90 -> Rabs (B2R r - ((1 - a / 90) * 1 + a / 90 * B2R side)) <= bpow radix2 (-47)) /\
    (90 <= a -> Rabs (B2R r - ((1 - (a - 90) / 90) * B2R side + (a - 90) / 90 * B2R back)) <= bpow radix2 (-47)).
Proof.
  intros L d back side D B S a Ha. unfold dir_rate. change (@nlit F (NumF L) 90 1) with (F_of_Z 90). change (@nlit F (NumF L) 1 1) with fone. cbn [nabs nsub nadd nmul ndiv nltb NumF].
  destruct (F_of_Z_exact 90 ltac:(lia)) as [N1 N2]. assert (A0 : 0 <= a) by apply Rabs_pos. assert (DA : close 8 0 a (Babs d)) by (unfold a; rewrite <- B2R_Babs; apply close_exact; [now rewrite is_finite_Babs|rewrite B2R_Babs, Rabs_Rabsolu; change (bpow radix2 8) with 256; fold a; lra]).
  assert (AV : B2R (Babs d) = a) by apply B2R_Babs. rewrite ltb_F by (try assumption; now rewrite is_finite_Babs). rewrite N1, AV.
  (* one minus a quotient, times a difference, added to a rate *)
  assert (G : forall q y q0 (pl mi : F) (x z w : R), close 1 (9 * / 9007199254740992) q y -> q0 = 1 - q -> Rabs (x - z) <= bpow radix2 1 -> close 0 0 x pl -> close 0 0 z mi -> close 2 (15 * / 9007199254740992) q0 (Bminus mode_NE fone y) /\ close 3 (51 * / 9007199254740992) ((x - z) * q0) (Bmult mode_NE (Bminus mode_NE pl mi) (Bminus mode_NE fone y))).
  { intros q y q0 pl mi x z w Y -> XZ PL MI. assert (P1 := close_sub 1 _ _ _ _ _ _ ltac:(lia) (close_up 0 1 _ _ _ ltac:(lia) one_close) Y). assert (P2 := close_sub 0 _ _ _ _ _ _ ltac:(lia) PL MI). assert (P3 : close 2 (15 * / 9007199254740992) (1 - q) (Bminus mode_NE fone y)) by (eapply close_weaken; [|exact P1]; change (1 + 1 - 54)%Z with (-52)%Z; change (bpow radix2 (-52)) with (/ 4503599627370496); lra).
    split; [exact P3|]. change (0 + 1)%Z with 1%Z in P2. assert (P4 := close_mul 1 2 _ _ _ _ _ _ ltac:(lia) XZ P2 P3). eapply close_weaken; [|exact P4]. change (1 + 2 - 54)%Z with (-51)%Z. change (1 - 54)%Z with (-53)%Z. change (bpow radix2 (-51)) with (/ 2251799813685248). change (bpow radix2 (-53)) with (/ 9007199254740992). change (bpow radix2 1) with 2. change (bpow radix2 2) with 4. lra. }
  assert (BS := proj2 B). assert (SS := proj2 S). change (bpow radix2 0) with 1 in BS, SS. apply Rabs_le_inv in BS, SS. change (bpow radix2 (-47)) with (/ 140737488355328). case Rlt_bool_spec; intros C.
  - assert (X := close_sub 8 _ _ _ _ _ _ ltac:(lia) DA (close_up 7 8 _ _ _ ltac:(lia) (fb_close 7 _ (fbound_Z 7 90 ltac:(lia) ltac:(lia))))). rewrite N1 in X. destruct X as (X1 & _ & X3). change (8 + 1 - 54)%Z with (-45)%Z in X3. change (bpow radix2 (-45)) with (/ 35184372088832) in X3.
    destruct (quot_close 0 (0 + 0 + / 35184372088832) 0 (a - 90) 90 ((a - 90) / 90) (Bminus mode_NE (Babs d) (F_of_Z 90)) (F_of_Z 90)) as (y & Y1 & Y2 & Y3 & Y4); try assumption; try lia; rewrite ?(Rabs_pos_eq 90) by lra; change (bpow radix2 0) with 1; try lra.
    { rewrite N1, Rminus_eq_0, Rabs_R0. lra. } { rewrite Rabs_pos_eq; lra. }
    rewrite Y1. cbn [bind]. eexists. split; [reflexivity|]. rewrite (Rabs_pos_eq 90) in Y3 by lra. change (bpow radix2 0) with 1 in Y3. change (0 - 53)%Z with (-53)%Z in Y3. change (bpow radix2 (-53)) with (/ 9007199254740992) in Y3.
    assert (CY : close 1 (9 * / 9007199254740992) ((a - 90) / 90) y) by (split; [exact Y2|split; [exact Y4|lra]]).
    destruct (G _ y (1 - (a - 90) / 90) back side (B2R back) (B2R side) 0 CY eq_refl) as [_ P]; [change (bpow radix2 1) with 2; apply Rabs_le; lra|now apply fb_close|now apply fb_close|].
    destruct (close_sub 3 _ _ _ _ _ _ ltac:(lia) (close_up 0 3 _ _ _ ltac:(lia) (fb_close _ _ B)) P) as (W1 & _ & W2). change (3 + 1 - 54)%Z with (-50)%Z in W2. change (bpow radix2 (-50)) with (/ 1125899906842624) in W2. split; [exact W1|]. split; [intros; lra|]. intros _.
    replace ((1 - (a - 90) / 90) * B2R side + (a - 90) / 90 * B2R back) with (B2R back - (B2R back - B2R side) * (1 - (a - 90) / 90)) by field. eapply Rle_trans; [exact W2|]. lra.
  - destruct DA as (DA1 & _ & DA3). destruct (quot_close 0 0 0 a 90 (a / 90) (Babs d) (F_of_Z 90)) as (y & Y1 & Y2 & Y3 & Y4); try assumption; try lia; rewrite ?(Rabs_pos_eq 90) by lra; change (bpow radix2 0) with 1; try lra.
    { rewrite N1, Rminus_eq_0, Rabs_R0. lra. } { rewrite Rabs_pos_eq; lra. }
    rewrite Y1. cbn [bind]. eexists. split; [reflexivity|]. rewrite (Rabs_pos_eq 90) in Y3 by lra. change (bpow radix2 0) with 1 in Y3. change (0 - 53)%Z with (-53)%Z in Y3. change (bpow radix2 (-53)) with (/ 9007199254740992) in Y3.
    assert (CY : close 1 (9 * / 9007199254740992) (a / 90) y) by (split; [exact Y2|split; [exact Y4|lra]]).
    destruct (G _ y (1 - a / 90) fone side 1 (B2R side) 0 CY eq_refl) as [_ P]; [change (bpow radix2 1) with 2; apply Rabs_le; lra|exact one_close|now apply fb_close|].
    destruct (close_add 3 _ _ _ _ _ _ ltac:(lia) (close_up 0 3 _ _ _ ltac:(lia) (fb_close _ _ S)) P) as (W1 & _ & W2). change (3 + 1 - 54)%Z with (-50)%Z in W2. change (bpow radix2 (-50)) with (/ 1125899906842624) in W2. split; [exact W1|].
    assert (W3 : Rabs (B2R (Bplus mode_NE side (Bmult mode_NE (Bminus mode_NE fone side) (Bminus mode_NE fone y))) - ((1 - a / 90) * 1 + a / 90 * B2R side)) <= / 140737488355328) by (replace ((1 - a / 90) * 1 + a / 90 * B2R side) with (B2R side + (1 - B2R side) * (1 - a / 90)) by field; eapply Rle_trans; [exact W2|]; lra).
    split; [intros _; exact W3|]. intros H90. assert (E : a = 90) by lra. rewrite E in *. replace ((1 - (90 - 90) / 90) * B2R side + (90 - 90) / 90 * B2R back) with ((1 - 90 / 90) * 1 + 90 / 90 * B2R side) by field. exact W3.
Qed.

(** ** The hypotheses are met *)
(** powers rounded correctly *)
Definition libm_pow : libm := {| lm_sin := fun x => x; lm_cos := fun x => x; lm_tan := fun x => x; lm_asin := fun x => x; lm_acos := fun x => x; lm_atan := fun x => x;
  lm_atan2 := fun _ x => x; lm_exp := fun x => x; lm_log := fun x => x; lm_pow := fun x y => F_of_R (B2R x ^ Z.to_nat (Zfloor (B2R y))) |}.
Lemma libm_pow_unit : pow_unit libm_pow.
Proof.
  intros x n FX HX HN. cbn zeta. cbn [lm_pow libm_pow]. destruct (F_of_Z_exact (Z.of_nat n) ltac:(lia)) as [E _]. rewrite E, Zfloor_IZR, Nat2Z.id.
  assert (B : 0 <= B2R x ^ n <= 1) by (split; [apply pow_le; lra|rewrite <- (pow1 n); apply pow_incr; lra]).
  assert (A : Rabs (B2R x ^ n) <= bpow radix2 0) by (change (bpow radix2 0) with 1; apply Rabs_le; lra). destruct (F_of_R_ok (B2R x ^ n)) as [G1 G2]; [eapply Rle_trans; [exact A|apply bpow_le; lia]|].
  split; [exact G1|]. rewrite G2. destruct (rnd_err _ 0 ltac:(lia) A) as [R _]. eapply Rle_trans; [exact R|]. apply bpow_le. lia.
Qed.
Lemma fb_Z k z : (Z.abs z <= 2 ^ k)%Z -> (0 <= k <= 50)%Z -> fbound k (F_of_Z z).
Proof. intros A B. apply fbound_Z; lia. Qed.
Example C147_nonvacuous : pow_unit libm_pow /\ (exists d : F, B2R d = / 2 /\ decay_ok 1 d) /\ within 2 (fv 3 4) /\ within (2 + 1) (fv 5 (-7)) /\ fbound 2 (F_of_Z 3) /\ (Z.of_nat 10 < 2 ^ 53)%Z /\
  (fbound 2 (F_of_Z 1) /\ fbound 7 (F_of_Z 100) /\ 0 <= B2R (F_of_Z 5) <= bpow radix2 400) /\ (is_finite (F_of_Z (-120)) = true /\ Rabs (B2R (F_of_Z (-120))) <= 180 /\ bpow radix2 (- 0) <= B2R (F_of_Z 2)) /\ fbound 0 (F_of_Z 1).
Proof.
  split; [exact libm_pow_unit|]. split.
  - exists (@nlit F (NumF libm_pow) 1 2). assert (N : B2SF (@nlit F (NumF libm_pow) 1 2) = SpecFloat.S754_finite false 4503599627370496 (-53)) by (vm_compute; reflexivity). set (h := @nlit F (NumF libm_pow) 1 2) in *. clearbody h.
    destruct h; try discriminate. injection N as -> -> ->. assert (V : B2R (B754_finite false 4503599627370496 (-53) e0) = / 2).
    { change (B2R _) with (IZR 4503599627370496 * bpow radix2 (-53)). change (bpow radix2 (-53)) with (/ 9007199254740992). lra. }
    split; [exact V|]. split; [reflexivity|]. rewrite V. change (bpow radix2 (- (1))) with (/ 2). lra.
  - destruct (F_of_Z_exact 5 eq_refl) as [A1 A2]. destruct (F_of_Z_exact (-120) eq_refl) as [B1 B2]. destruct (F_of_Z_exact 2 eq_refl) as [C1 C2]. rewrite A1, B1, C1.
    assert (W : forall k a b, (0 <= k <= 50)%Z -> (Z.abs a <= 2 ^ k)%Z -> (Z.abs b <= 2 ^ k)%Z -> within k (fv a b)) by (intros k a b K Ha Hb; destruct (fb_Z k a Ha K), (fb_Z k b Hb K); unfold within, fv; cbn [vx vy]; tauto).
    split; [apply W; lia|]. split; [apply W; lia|]. split; [apply fb_Z; lia|]. split; [lia|]. split; [|split; [|apply fb_Z; lia]].
    + split; [apply fb_Z; lia|]. split; [apply fb_Z; lia|]. split; [lra|]. apply Rle_trans with (bpow radix2 3); [change (bpow radix2 3) with 8; lra|apply bpow_le; lia].
    + split; [exact B2|]. split; [apply Rabs_le; lra|]. change (bpow radix2 (- 0)) with 1. lra.
Qed.
Example C148_nonvacuous : kick_ok (F_of_Z 3) (F_of_Z 45) (F_of_Z 100) (F_of_Z 1) (F_of_Z 1) (F_of_Z 2) /\ kick_ok (F_of_Z 4) (F_of_Z (-90)) (F_of_Z 100) (F_of_Z 1) (F_of_Z 1) (F_of_Z 2) /\
  0 <= B2R (F_of_Z 100) /\ B2R (F_of_Z 3) <= B2R (F_of_Z 4) /\ Rabs (B2R (F_of_Z 45)) <= Rabs (B2R (F_of_Z (-90))) /\ B2R (F_of_Z 1) + B2R (F_of_Z 1) <= B2R (F_of_Z 3).
Proof.
  assert (U : forall z, (Z.abs z <= 2 ^ 50)%Z -> fbound 100 (F_of_Z z)) by (intros z Hz; destruct (fb_Z 50 z Hz ltac:(lia)) as [A B]; split; [exact A|eapply Rle_trans; [exact B|apply bpow_le; lia]]).
  assert (E : forall z, (Z.abs z <= 2 ^ 50)%Z -> B2R (F_of_Z z) = IZR z) by (intros z Hz; apply F_of_Z_exact; lia).
  assert (K : bpow radix2 (-100) <= B2R (F_of_Z 2)) by (rewrite E by lia; apply Rle_trans with (bpow radix2 1); [apply bpow_le; lia|change (bpow radix2 1) with 2; lra]).
  split; [repeat split; try (apply U; lia); exact K|]. split; [repeat split; try (apply U; lia); exact K|]. rewrite !E by lia. rewrite Rabs_pos_eq, Rabs_left by lra. lra.
Qed.
