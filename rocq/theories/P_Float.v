(** * P_Float: properties in IEEE binary64, for every C library: C91, C92, C93,
      C97, C98 *)
From Coq Require Import ZArith List Bool String Reals Lra Lia Psatz.
From Flocq Require Import Core BinarySingleNaN.
From Verif Require Import Base Types NumR NumF R_Tac Spec Spec2 Abs M_Angle M_Vector M_Line M_Triangle M_Segment M_Rect M_Polygon M_Soccer L_Float L_Seg P_Segment P_Soccer2.
Import ListNotations.
Local Open Scope R_scope.

(** ** The order of the doubles *)
(** an order-preserving map of the doubles other than NaN into the reals *)
Definition key (x : F) : R :=
  match x with B754_infinity true => - bpow radix2 1024 | B754_infinity false => bpow radix2 1024 | _ => B2R x end.
Lemma key_fin (x : F) : is_finite x = true -> key x = B2R x /\ - bpow radix2 1024 < B2R x < bpow radix2 1024.
Proof. intros H. split; [destruct x; easy|]. pose proof (F2R_lt_emax_fin x) as B. apply Rabs_def2 in B. lra. Qed.
Lemma key_ltb (x y : F) : is_nan x = false -> is_nan y = false -> Bltb x y = Rlt_bool (key x) (key y).
Proof.
  intros Hx Hy. assert (B0 : 0 < bpow radix2 1024) by apply bpow_gt_0.
  destruct (is_finite x) eqn:Fx, (is_finite y) eqn:Fy.
  - rewrite ltb_F by easy. now rewrite (proj1 (key_fin x Fx)), (proj1 (key_fin y Fy)).
  - destruct (key_fin x Fx) as [-> K]. destruct y as [|[]| |]; try discriminate; cbn [key].
    + rewrite Rlt_bool_false by lra. destruct x as [|[]| |[]]; easy.
    + rewrite Rlt_bool_true by lra. destruct x as [|[]| |[]]; easy.
  - destruct (key_fin y Fy) as [-> K]. destruct x as [|[]| |]; try discriminate; cbn [key].
    + rewrite Rlt_bool_true by lra. destruct y as [|[]| |[]]; easy.
    + rewrite Rlt_bool_false by lra. destruct y as [|[]| |[]]; easy.
  - destruct x as [|[]| |]; try discriminate; destruct y as [|[]| |]; try discriminate; cbn [key]; (rewrite Rlt_bool_true by lra) || (rewrite Rlt_bool_false by lra); reflexivity.
Qed.
Lemma key_leb (x y : F) : is_nan x = false -> is_nan y = false -> Bleb x y = Rle_bool (key x) (key y).
Proof.
  intros Hx Hy. assert (B0 : 0 < bpow radix2 1024) by apply bpow_gt_0.
  destruct (is_finite x) eqn:Fx, (is_finite y) eqn:Fy.
  - rewrite leb_F by easy. now rewrite (proj1 (key_fin x Fx)), (proj1 (key_fin y Fy)).
  - destruct (key_fin x Fx) as [-> K]. destruct y as [|[]| |]; try discriminate; cbn [key].
    + rewrite Rle_bool_false by lra. destruct x as [|[]| |[]]; easy.
    + rewrite Rle_bool_true by lra. destruct x as [|[]| |[]]; easy.
  - destruct (key_fin y Fy) as [-> K]. destruct x as [|[]| |]; try discriminate; cbn [key].
    + rewrite Rle_bool_true by lra. destruct y as [|[]| |[]]; easy.
    + rewrite Rle_bool_false by lra. destruct y as [|[]| |[]]; easy.
  - destruct x as [|[]| |]; try discriminate; destruct y as [|[]| |]; try discriminate; cbn [key]; (rewrite Rle_bool_true by lra) || (rewrite Rle_bool_false by lra); reflexivity.
Qed.
Lemma key_eqb (x y : F) : is_nan x = false -> is_nan y = false -> Beqb x y = Req_bool (key x) (key y).
Proof.
  intros Hx Hy. assert (B0 : 0 < bpow radix2 1024) by apply bpow_gt_0.
  destruct (is_finite x) eqn:Fx, (is_finite y) eqn:Fy.
  - rewrite eqb_F by easy. now rewrite (proj1 (key_fin x Fx)), (proj1 (key_fin y Fy)).
  - destruct (key_fin x Fx) as [-> K]. destruct y as [|[]| |]; try discriminate; cbn [key]; rewrite Req_bool_false by lra; destruct x as [|[]| |[]]; easy.
  - destruct (key_fin y Fy) as [-> K]. destruct x as [|[]| |]; try discriminate; cbn [key]; rewrite Req_bool_false by lra; destruct y as [|[]| |[]]; easy.
  - destruct x as [|[]| |]; try discriminate; destruct y as [|[]| |]; try discriminate; cbn [key]; (rewrite Req_bool_true by lra) || (rewrite Req_bool_false by lra); reflexivity.
Qed.

Ltac kb H := first [rewrite key_leb in H by easy; apply Rle_bool_iff in H | rewrite key_ltb in H by easy; apply Rlt_bool_iff in H].
Ltac kg := rewrite key_leb by easy; apply Rle_bool_iff; lra.

(** ** C91 in binary64 *)
Theorem C91_clamp_F : forall (L : libm) (low x high : F), is_nan low = false -> is_nan x = false -> is_nan high = false ->
  let r := @min_max F (NumF L) low x high in
  r = @bound F (NumF L) low x high /\
  (r = low \/ r = x \/ r = high) /\
  (Bleb low high = true ->
     Bleb low r = true /\ Bleb r high = true /\
     (Bleb low x = true -> Bleb x high = true -> Beqb r x = true) /\
     (Bltb x low = true -> r = low) /\ (Bltb high x = true -> r = high)) /\
  (Bltb high low = true -> r = high).
Proof.
  intros L a x b Na Nx Nb r. unfold r, min_max, bound, nmin, nmax. cbn [nltb NumF].
  split; [reflexivity|]. split; [destruct (Bltb a x); [destruct (Bltb b x)|destruct (Bltb b a)]; auto|].
  rewrite (key_ltb a x) by easy. split.
  - intros H. kb H. destruct (Rlt_bool_spec (key a) (key x)) as [C|C].
    + rewrite (key_ltb b x) by easy. destruct (Rlt_bool_spec (key b) (key x)) as [D|D].
      * split; [kg|]. split; [kg|]. split; [intros _ G; kb G; lra|split; [intros G; kb G; lra|intros _; reflexivity]].
      * split; [kg|]. split; [kg|]. split; [intros _ _; rewrite key_eqb by easy; now apply Req_bool_iff|]. split; intros G; [kb G; lra|discriminate].
    + rewrite (key_ltb b a) by easy. rewrite (Rlt_bool_false (key b)) by lra. split; [kg|]. split; [kg|]. split; [|split].
      * intros G _. kb G. rewrite key_eqb by easy. apply Req_bool_iff. lra.
      * intros _; reflexivity.
      * intros G. kb G. lra.
  - intros H. kb H. destruct (Rlt_bool_spec (key a) (key x)) as [C|C]; rewrite key_ltb by easy; rewrite Rlt_bool_true by lra; reflexivity.
Qed.
Example C91_F_nonvacuous : forall L, @min_max F (NumF L) (F_of_Z 0) (B754_infinity false) (F_of_Z 3) = F_of_Z 3 /\ is_nan (@B754_infinity 53 1024 false) = false.
Proof. intros L. split; [apply B2SF_inj; vm_compute; reflexivity|reflexivity]. Qed.

(** ** C92 in binary64 *)
(** in every arithmetic, no value at or past the stop is produced *)
Theorem C92_below_stop : forall T (N : Num T) (n : nat) (start stop step v : T), In v (f_range_take n start stop step) ->
  (nltb (num 0) step = true -> nleb stop v = false) /\ (nltb step (num 0) = true -> nleb v stop = false).
Proof.
  intros T N n. induction n as [|n IH]; intros a s t v H; [easy|]. cbn [f_range_take] in H. destruct (f_range_next a s t) as [[w a']|] eqn:E; [|easy]. destruct H as [->|H].
  - unfold f_range_next in E. destruct (nltb (num 0) t) eqn:A; destruct (nleb s a) eqn:B; cbn [andb] in E; try discriminate; destruct (nltb t (num 0)) eqn:C; destruct (nleb a s) eqn:D; cbn [andb] in E; try discriminate; injection E as E _; subst v; split; intros; congruence.
  - apply (IH a' s t v H).
Qed.
(** when adding the step no longer changes the value the generator never ends *)
Lemma stuck_forever T (N : Num T) (start stop step : T) : f_range_next start stop step = Some (start, start) ->
  (forall n, f_range_take n start stop step = repeat start n) /\ forall l, ~ f_range_run start stop step l.
Proof.
  intros E. split.
  - induction n as [|n IH]; cbn [f_range_take repeat]; [easy|]. now rewrite E, IH.
  - intros l H. induction H as [a s t Q|a s t v a' l Q H IH]; rewrite E in Q; [discriminate|]. injection Q as <- <-. auto.
Qed.
Lemma F_eq_SF (x y : F) : B2SF x = B2SF y -> x = y. Proof. apply B2SF_inj. Qed.
Theorem C92_stuck_F : forall L : libm, let start := Fd 1 53 in let stop := Fd 9007199254740994 0 in let step := F_of_Z 1 in
  Bltb start stop = true /\ Bltb (F_of_Z 0) step = true /\
  (forall n, @f_range_take F (NumF L) n start stop step = repeat start n) /\ forall l, ~ @f_range_run F (NumF L) start stop step l.
Proof.
  intros L start stop step. split; [vm_compute; reflexivity|]. split; [vm_compute; reflexivity|]. apply stuck_forever.
  assert (E : Bplus mode_NE start step = start) by (apply F_eq_SF; vm_compute; reflexivity).
  unfold f_range_next. cbn [nltb nleb nadd NumF]. replace (Bleb stop start) with false by (vm_compute; reflexivity). rewrite andb_false_r.
  replace (Bltb step (@nlit F (NumF L) 0 1)) with false by (vm_compute; reflexivity). cbn [andb]. now rewrite E.
Qed.
Example C92_below_stop_nonvacuous : forall L, map B2SF (@f_range_take F (NumF L) 5 (F_of_Z 0) (F_of_Z 2) (F_of_Z 1)) = map B2SF [F_of_Z 0; F_of_Z 1].
Proof. intros L. vm_compute. reflexivity. Qed.

(** ** C93 in binary64 *)
Lemma fmt_Z53 n : (Z.abs n <= 2 ^ 53)%Z -> fmt64 (IZR n).
Proof.
  intros H. destruct (Z.eq_dec (Z.abs n) (2 ^ 53)) as [E|E]; [|apply fmt_Z; lia].
  assert (P : fmt64 (IZR (2 ^ 53))). { replace (IZR (2 ^ 53)) with (F2R (Float radix2 1 53)) by (unfold F2R; cbn; lra). apply fmt_F2R; lia. }
  destruct (Z.abs_spec n) as [[_ Q]|[_ Q]]; rewrite Q in E; [now subst n|]. replace n with (- (2 ^ 53))%Z by lia. rewrite opp_IZR. now apply fmt_opp.
Qed.
Lemma F_of_Z_rnd n : Rabs (rnd64 (IZR n)) < bpow radix2 1024 -> B2R (F_of_Z n) = rnd64 (IZR n) /\ is_finite (F_of_Z n) = true.
Proof.
  intros H. pose proof (binary_normalize_correct 53 1024 prec53 emax1024 mode_NE n 0 false) as K. cbn beta iota zeta in K.
  assert (E : F2R (Float radix2 n 0) = IZR n) by (unfold F2R; cbn; ring). rewrite E in K. fold (rnd64 (IZR n)) in K. unfold round_mode in K.
  rewrite Rlt_bool_true in K by exact H. destruct K as (K1 & K2 & _). split; assumption.
Qed.
Lemma F_of_Z53 n : (Z.abs n <= 2 ^ 53)%Z -> B2R (F_of_Z n) = IZR n /\ is_finite (F_of_Z n) = true.
Proof.
  intros H. pose proof (rnd_id _ (fmt_Z53 n H)) as E. rewrite <- E. apply F_of_Z_rnd. rewrite E. apply small_lt_emax with (IZR (2 ^ 53)).
  - rewrite <- abs_IZR. now apply IZR_le. - apply IZR_le. now compute.
Qed.
Lemma fmt_frac (x : F) : is_finite x = true -> fmt64 (B2R x - IZR (Ztrunc (B2R x))).
Proof.
  intros H. destruct (F_of_Z_exact 1 eq_refl) as [E1 E2]. destruct (F_fmod_fin_exact x (F_of_Z 1) H E2 ltac:(rewrite E1; lra)) as [K _].
  rewrite E1 in K. replace (B2R x / 1) with (B2R x) in K by field. rewrite Rmult_1_l in K. rewrite <- K. apply fmt_F.
Qed.
Lemma F_abs (x : F) : B2R (Babs x) = Rabs (B2R x) /\ is_finite (Babs x) = is_finite x.
Proof. split; [apply B2R_Babs|apply is_finite_Babs]. Qed.
Lemma fmt_half : fmt64 (1/2). Proof. replace (1/2) with (F2R (Float radix2 1 (-1))) by (unfold F2R; cbn; lra). apply fmt_F2R; lia. Qed.

Lemma F_trunc_R (x : F) : is_finite x = true -> F_trunc x = Ok (Ztrunc (B2R x)).
Proof.
  intros H. assert (E : Btrunc x = Ztrunc (B2R x)). { apply eq_IZR. rewrite (Btrunc_correct 53 1024 emax1024 x). apply round_FIX_IZR. }
  destruct x; try discriminate; cbn [F_trunc]; now f_equal.
Qed.
(** |k - x| computed in doubles *)
Lemma F_dist (k : Z) (x : F) : is_finite x = true -> (Z.abs k <= 2 ^ 53)%Z -> Rabs (IZR k - B2R x) <= 4 ->
  B2R (Babs (Bminus mode_NE (F_of_Z k) x)) = Rabs (rnd64 (IZR k - B2R x)) /\ is_finite (Babs (Bminus mode_NE (F_of_Z k) x)) = true.
Proof.
  intros Hx Hk HB. destruct (F_of_Z53 k Hk) as [E1 E2].
  destruct (F_sub (F_of_Z k) x E2 Hx) as [S1 S2].
  - rewrite E1. apply small_lt_emax with 4; [|apply IZR_le; now compute]. assert (F4 : fmt64 4) by (apply (fmt_Z 4); lia).
    assert (-4 <= rnd64 (IZR k - B2R x) <= 4) by (apply rnd_between; [apply (fmt_Z (-4)); lia|easy|apply Rabs_le_inv; lra]). apply Rabs_le. lra.
  - destruct (F_abs (Bminus mode_NE (F_of_Z k) x)) as [A1 A2]. rewrite A1, A2, S1, E1. easy.
Qed.
Theorem C93_r_int_F : forall (L : libm) (x : F), is_finite x = true -> Rabs (B2R x) <= 9007199254740991 ->
  exists n, @r_int F (NumF L) x = Ok n /\ round_away (B2R x) n.
Proof.
  intros L x Hx HB. unfold r_int. cbn [ntrunc nofZ nsub nabs nltb NumF]. rewrite F_trunc_R by easy. cbn [bind].
  pose proof (fmt_frac x Hx) as FF. pose proof (trunc_bounds (B2R x)) as TB. set (k := Ztrunc (B2R x)) in *. set (r := B2R x) in *.
  assert (Hr : - 9007199254740991 <= r <= 9007199254740991) by (now apply Rabs_le_inv).
  assert (Hk : Rabs (IZR k - r) < 1). { apply Rabs_def1; destruct (Rle_lt_dec 0 r) as [C|C]; [destruct (proj1 TB C)|destruct (proj2 TB C)|destruct (proj1 TB C)|destruct (proj2 TB C)]; lra. }
  assert (Kb : (Z.abs k <= 2 ^ 53 - 1)%Z).
  { apply le_IZR. rewrite abs_IZR. replace (IZR (2 ^ 53 - 1)) with 9007199254740991 by (cbn; lra). destruct (Rle_lt_dec 0 r) as [C|C]; [destruct (proj1 TB C)|destruct (proj2 TB C)]; apply Rabs_le; lra. }
  apply Rabs_def2 in Hk.
  destruct (F_dist k x Hx ltac:(lia)) as [D1 D2]; [fold r; apply Rabs_le; lra|].
  destruct (F_dist (k - 1) x Hx ltac:(lia)) as [L1 L2]; [fold r; rewrite minus_IZR; apply Rabs_le; lra|].
  destruct (F_dist (k + 1) x Hx ltac:(lia)) as [R1 R2]; [fold r; rewrite plus_IZR; apply Rabs_le; lra|].
  rewrite !ltb_F by easy. rewrite D1, L1, R1. fold r. rewrite minus_IZR, plus_IZR.
  replace (rnd64 (IZR k - r)) with (IZR k - r) by (symmetry; apply rnd_id; replace (IZR k - r) with (- (r - IZR k)) by ring; now apply fmt_opp).
  assert (F1 : fmt64 1) by (apply (fmt_Z 1); lia). assert (F1' : fmt64 (-1)) by (apply (fmt_Z (-1)); lia). assert (F2 : fmt64 2) by (apply (fmt_Z 2); lia). assert (F2' : fmt64 (-2)) by (apply (fmt_Z (-2)); lia).
  pose proof fmt_half as FH. pose proof (fmt_opp _ fmt_half) as FH'. assert (F0 : fmt64 0) by (apply (fmt_Z 0); lia).
  eexists. split; [reflexivity|]. unfold round_away. destruct (Rle_lt_dec 0 r) as [C|C].
  - destruct (proj1 TB C) as [B1 B2]. set (f := r - IZR k) in *. assert (Hf : 0 <= f < 1) by (unfold f; lra).
    replace (IZR k - r) with (- f) by (unfold f; ring). replace (IZR k - 1 - r) with (- (1 + f)) by (unfold f; ring). replace (IZR k + 1 - r) with (1 - f) by (unfold f; ring).
    rewrite rnd_opp, !Rabs_Ropp. rewrite (Rabs_pos_eq f) by lra.
    assert (G1 : 1 <= rnd64 (1 + f) <= 2) by (apply rnd_between; try easy; lra). rewrite (Rabs_pos_eq (rnd64 (1 + f))) by lra. rewrite (Rlt_bool_true f (rnd64 (1 + f))) by lra. cbn [andb].
    destruct (Rlt_le_dec f (1/2)) as [Q|Q].
    + assert (G2 : 1/2 <= rnd64 (1 - f) <= 1) by (apply rnd_between; try easy; lra). rewrite (Rabs_pos_eq (rnd64 (1 - f))) by lra. rewrite Rlt_bool_true by lra.
      replace (IZR k - r) with (- f) by (unfold f; ring). rewrite Rabs_Ropp, (Rabs_pos_eq f) by lra. split; lra.
    + assert (G2 : 0 <= rnd64 (1 - f) <= 1/2) by (apply rnd_between; try easy; lra). rewrite (Rabs_pos_eq (rnd64 (1 - f))) by lra. rewrite (Rlt_bool_false f) by lra. rewrite Rlt_bool_false by lra.
      rewrite plus_IZR. replace (IZR k + 1 - r) with (1 - f) by (unfold f; ring). rewrite (Rabs_pos_eq (1 - f)) by lra. split; [lra|]. intros _. rewrite !Rabs_pos_eq by lra. unfold f in Hf. lra.
  - destruct (proj2 TB C) as [B1 B2]. set (f := IZR k - r) in *. assert (Hf : 0 <= f < 1) by (unfold f; lra).
    replace (IZR k - 1 - r) with (- (1 - f)) by (unfold f; ring). replace (IZR k + 1 - r) with (1 + f) by (unfold f; ring).
    rewrite rnd_opp, Rabs_Ropp. rewrite (Rabs_pos_eq f) by lra.
    assert (G1 : 1 <= rnd64 (1 + f) <= 2) by (apply rnd_between; try easy; lra). rewrite (Rabs_pos_eq (rnd64 (1 + f))) by lra. rewrite (Rlt_bool_true f (rnd64 (1 + f))) by lra. rewrite andb_true_r.
    destruct (Rlt_le_dec f (1/2)) as [Q|Q].
    + assert (G2 : 1/2 <= rnd64 (1 - f) <= 1) by (apply rnd_between; try easy; lra). rewrite (Rabs_pos_eq (rnd64 (1 - f))) by lra. rewrite Rlt_bool_true by lra.
      fold f. rewrite (Rabs_pos_eq f) by lra. split; lra.
    + assert (G2 : 0 <= rnd64 (1 - f) <= 1/2) by (apply rnd_between; try easy; lra). rewrite (Rabs_pos_eq (rnd64 (1 - f))) by lra. rewrite (Rlt_bool_false f) by lra. rewrite Rlt_bool_true by lra.
      rewrite minus_IZR. replace (IZR k - 1 - r) with (- (1 - f)) by (unfold f; ring). rewrite Rabs_Ropp, (Rabs_pos_eq (1 - f)) by lra. split; [lra|]. intros _. rewrite !Rabs_left1 by lra. unfold f in Hf. lra.
Qed.
Example C93_F_nonvacuous : is_finite (Fd 5 (-1)) = true /\ forall L, @r_int F (NumF L) (Fd 5 (-1)) = Ok 3%Z.
Proof. split; [reflexivity|]. intros L. vm_compute. reflexivity. Qed.
(** the bound is sharp *)
Theorem C93_refuted_F : forall L : libm, B2R (Fd 1 53) = 9007199254740992 /\ @r_int F (NumF L) (Fd 1 53) = Ok 9007199254740993%Z.
Proof. intros L. split; [vm_compute; lra|vm_compute; reflexivity]. Qed.

(** every double of magnitude 2^55 or more is rounded to a wrong integer *)
Lemma fmt_big x (k : Z) : fmt64 x -> (1 <= k <= 10)%Z -> bpow radix2 (52 + k) <= Rabs x -> exists m : Z, x = IZR (m * 2 ^ k).
Proof.
  intros Hx Hk HB. assert (M : (53 + k <= mag radix2 x)%Z) by (replace (53 + k)%Z with ((52 + k) + 1)%Z by ring; apply mag_ge_bpow; replace (52 + k + 1 - 1)%Z with (52 + k)%Z by ring; exact HB).
  unfold fmt64, generic_format in Hx. set (e := cexp radix2 (FLT_exp (-1074) 53) x) in *. set (z := Ztrunc (scaled_mantissa radix2 (FLT_exp (-1074) 53) x)) in *.
  assert (He : (k <= e)%Z) by (unfold e, cexp, FLT_exp; lia). exists (z * 2 ^ (e - k))%Z. rewrite Hx. unfold F2R. cbn [Fnum Fexp].
  replace (z * 2 ^ (e - k) * 2 ^ k)%Z with (z * 2 ^ e)%Z. - rewrite mult_IZR. f_equal. rewrite <- IZR_Zpower by lia. reflexivity.
  - rewrite <- Z.mul_assoc, <- Z.pow_add_r by lia. do 2 f_equal. ring.
Qed.
Lemma fmt_bpow e : (-1000 <= e)%Z -> fmt64 (bpow radix2 e).
Proof. intros He. replace (bpow radix2 e) with (F2R (Float radix2 1 e)) by (unfold F2R; cbn [Fnum Fexp]; ring). apply fmt_F2R; lia. Qed.
Lemma rnd_abs_ge x e : (-1000 <= e)%Z -> bpow radix2 e <= Rabs x -> bpow radix2 e <= Rabs (rnd64 x).
Proof.
  intros He H. unfold Rabs in H. destruct (Rcase_abs x) as [C|C].
  - pose proof (rnd_le x (- bpow radix2 e) ltac:(lra)) as K. rewrite (rnd_id (- bpow radix2 e)) in K by (apply fmt_opp; now apply fmt_bpow). pose proof (bpow_gt_0 radix2 e). rewrite Rabs_left1; lra.
  - pose proof (rnd_le (bpow radix2 e) x ltac:(lra)) as K. rewrite (rnd_id (bpow radix2 e)) in K by (now apply fmt_bpow). pose proof (bpow_gt_0 radix2 e). rewrite Rabs_pos_eq; lra.
Qed.
Lemma rnd_absorb x s : fmt64 x -> bpow radix2 55 <= Rabs x -> Rabs s = 1 -> rnd64 (x + s) = x.
Proof.
  intros Hx HB Hs. destruct (round_N_pt radix2 (FLT_exp (-1074) 53) (fun n => negb (Z.even n)) (x + s)) as [P1 P2]. fold (rnd64 (x + s)) in P1, P2.
  specialize (P2 x Hx). replace (x - (x + s)) with (- s) in P2 by ring. rewrite Rabs_Ropp, Hs in P2.
  assert (D : Rabs (rnd64 (x + s) - x) <= 2). { replace (rnd64 (x + s) - x) with ((rnd64 (x + s) - (x + s)) + s) by ring. pose proof (Rabs_triang (rnd64 (x + s) - (x + s)) s). lra. }
  assert (B54 : bpow radix2 54 <= Rabs (rnd64 (x + s))).
  { apply rnd_abs_ge; [lia|]. pose proof (Rabs_triang_inv x (- s)) as T. replace (x - - s) with (x + s) in T by ring. rewrite Rabs_Ropp, Hs in T. replace (bpow radix2 55) with 36028797018963968 in HB by (vm_compute; lra). replace (bpow radix2 54) with 18014398509481984 by (vm_compute; lra). lra. }
  destruct (fmt_big x 3 Hx ltac:(lia) HB) as [m Em]. destruct (fmt_big _ 2 P1 ltac:(lia) B54) as [n En]. rewrite En in *. rewrite Em in D |- *. rewrite <- minus_IZR, <- abs_IZR in D. apply le_IZR in D. f_equal.
  change (2 ^ 3)%Z with 8%Z in *. change (2 ^ 2)%Z with 4%Z in *. lia.
Qed.
Theorem C93_large_F : forall (L : libm) (x : F), is_finite x = true -> Rabs (B2R x) >= bpow radix2 55 ->
  exists n, @r_int F (NumF L) x = Ok n /\ IZR n = B2R x + 1.
Proof.
  intros L x Hx HB. apply Rge_le in HB. unfold r_int. cbn [ntrunc nofZ nsub nabs nltb NumF]. rewrite F_trunc_R by easy. cbn [bind].
  pose proof (fmt_F x) as Fx. destruct (fmt_big _ 3 Fx ltac:(lia) HB) as [m Em].
  assert (EK : IZR (Ztrunc (B2R x)) = B2R x) by (rewrite Em; now rewrite Ztrunc_IZR). set (k := Ztrunc (B2R x)) in *.
  pose proof (F2R_lt_emax_fin x) as BX. assert (F0 : fmt64 0) by (apply (fmt_Z 0); lia).
  assert (D : forall j, rnd64 (IZR j) = B2R x -> B2R (Babs (Bminus mode_NE (F_of_Z j) x)) = 0 /\ is_finite (Babs (Bminus mode_NE (F_of_Z j) x)) = true).
  { intros j Ej. destruct (F_of_Z_rnd j) as [E1 E2]; [now rewrite Ej|]. rewrite Ej in E1. destruct (F_sub_exact (F_of_Z j) x 0 E2 Hx) as [S1 S2].
    - rewrite E1, Rminus_eq_0. exact F0. - rewrite E1, Rminus_eq_0, Rabs_R0. lra. - apply IZR_le. now compute.
    - destruct (F_abs (Bminus mode_NE (F_of_Z j) x)) as [A1 A2]. rewrite A1, A2, S1, E1, Rminus_eq_0, Rabs_R0. easy. }
  destruct (D k) as [D1 D2]; [rewrite EK; now apply rnd_id|].
  destruct (D (k - 1)%Z) as [L1 L2]; [rewrite minus_IZR, EK; apply (rnd_absorb (B2R x) (-1) Fx HB); rewrite Rabs_left; lra|].
  destruct (D (k + 1)%Z) as [R1 R2]; [rewrite plus_IZR, EK; apply (rnd_absorb (B2R x) 1 Fx HB); rewrite Rabs_pos_eq; lra|].
  rewrite !ltb_F by easy. rewrite D1, L1, R1, Rlt_bool_false by lra. cbn [andb]. eexists. split; [reflexivity|]. rewrite plus_IZR. lra.
Qed.
Example C93_large_nonvacuous : is_finite (Fd 1 60) = true /\ Rabs (B2R (Fd 1 60)) >= bpow radix2 55.
Proof. split; [reflexivity|]. assert (E : B2R (Fd 1 60) = 1152921504606846976) by (vm_compute; lra). rewrite E, Rabs_pos_eq by lra. cbn. lra. Qed.

(** ** C97 *)
(** the double [x] is [n] units of 2^[e] *)
Definition units (e n : Z) (x : F) : Prop := is_finite x = true /\ B2R x = IZR n * bpow radix2 e.
Lemma fmt_units n e : (Z.abs n <= 2 ^ 53)%Z -> (-1074 <= e)%Z -> fmt64 (IZR n * bpow radix2 e).
Proof.
  intros H He. destruct (Z.eq_dec (Z.abs n) (2 ^ 53)) as [E|E]; [|apply (fmt_F2R n e); lia].
  assert (P : fmt64 (IZR (2 ^ 53) * bpow radix2 e)). { replace (IZR (2 ^ 53) * bpow radix2 e) with (F2R (Float radix2 1 (53 + e))); [apply fmt_F2R; lia|]. unfold F2R. cbn [Fnum Fexp]. rewrite bpow_plus. change (bpow radix2 53) with (IZR (2 ^ 53)). ring. }
  destruct (Z.abs_spec n) as [[_ Q]|[_ Q]]; rewrite Q in E; [now subst n|]. replace n with (- (2 ^ 53))%Z by lia. rewrite opp_IZR, Ropp_mult_distr_l_reverse. now apply fmt_opp.
Qed.
Lemma units_small n e k : (Z.abs n <= 2 ^ k)%Z -> (0 <= k)%Z -> (e + k <= 1000)%Z -> Rabs (IZR n * bpow radix2 e) <= IZR (2 ^ 1000).
Proof.
  intros H Hk He. rewrite Rabs_mult, <- abs_IZR, (Rabs_pos_eq (bpow radix2 e)) by apply bpow_ge_0. change (IZR (2 ^ 1000)) with (bpow radix2 1000).
  apply Rle_trans with (bpow radix2 k * bpow radix2 e). - apply Rmult_le_compat_r; [apply bpow_ge_0|]. rewrite <- IZR_Zpower by easy. now apply IZR_le.
  - rewrite <- bpow_plus. apply bpow_le. lia.
Qed.
Lemma units_sub e n m x y : units e n x -> units e m y -> (Z.abs (n - m) <= 2 ^ 53)%Z -> (-1074 <= e <= 900)%Z -> units e (n - m) (Bminus mode_NE x y).
Proof.
  intros [X1 X2] [Y1 Y2] H He. assert (E : B2R x - B2R y = IZR (n - m) * bpow radix2 e) by (rewrite X2, Y2, minus_IZR; ring).
  destruct (F_sub_exact x y (Rabs (IZR (n - m) * bpow radix2 e)) X1 Y1) as [S1 S2]; [rewrite E; apply fmt_units; lia|rewrite E; lra|apply (units_small _ _ 53); lia|].
  split; [easy|]. now rewrite S1.
Qed.
Lemma units_add e n m x y : units e n x -> units e m y -> (Z.abs (n + m) <= 2 ^ 53)%Z -> (-1074 <= e <= 900)%Z -> units e (n + m) (Bplus mode_NE x y).
Proof.
  intros [X1 X2] [Y1 Y2] H He. assert (E : B2R x + B2R y = IZR (n + m) * bpow radix2 e) by (rewrite X2, Y2, plus_IZR; ring).
  destruct (F_add_exact x y (Rabs (IZR (n + m) * bpow radix2 e)) X1 Y1) as [S1 S2]; [rewrite E; apply fmt_units; lia|rewrite E; lra|apply (units_small _ _ 53); lia|].
  split; [easy|]. now rewrite S1.
Qed.
Lemma units_mul e f n m x y : units e n x -> units f m y -> (Z.abs (n * m) <= 2 ^ 53)%Z -> (-1074 <= e + f <= 900)%Z -> units (e + f) (n * m) (Bmult mode_NE x y).
Proof.
  intros [X1 X2] [Y1 Y2] H He. assert (E : B2R x * B2R y = IZR (n * m) * bpow radix2 (e + f)) by (rewrite X2, Y2, mult_IZR, bpow_plus; ring).
  assert (FM : fmt64 (B2R x * B2R y)) by (rewrite E; apply fmt_units; lia).
  destruct (F_mul x y X1 Y1) as [S1 S2]. - rewrite rnd_id by easy. rewrite E. apply small_lt_emax with (Rabs (IZR (n * m) * bpow radix2 (e + f))); [lra|apply (units_small _ _ 53); lia].
  - split; [easy|]. rewrite S1, rnd_id by easy. exact E.
Qed.
(** the sign of a product, even when the product itself is rounded *)
Lemma units_mul_neg e f n m x y : units e n x -> units f m y -> (Z.abs n <= 2 ^ 53)%Z -> (Z.abs m <= 2 ^ 53)%Z -> (-1000 <= e + f <= 850)%Z ->
  Bltb (Bmult mode_NE x y) (F_of_Z 0) = (n * m <? 0)%Z.
Proof.
  intros [X1 X2] [Y1 Y2] Hn Hm He. assert (E : B2R x * B2R y = IZR (n * m) * bpow radix2 (e + f)) by (rewrite X2, Y2, mult_IZR, bpow_plus; ring).
  assert (B0 : 0 < bpow radix2 (e + f)) by apply bpow_gt_0. assert (F0 : fmt64 0) by (apply (fmt_Z 0); lia).
  assert (BB : Rabs (rnd64 (B2R x * B2R y)) < bpow radix2 1024).
  { assert (P : (Z.abs (n * m) <= 2 ^ 106)%Z) by (rewrite Z.abs_mul; nia). pose proof (units_small (n * m) (e + f) 106 P ltac:(lia) ltac:(lia)) as K. rewrite <- E in K.
    assert (FB : fmt64 (bpow radix2 1000)) by (apply fmt_bpow; lia). change (IZR (2 ^ 1000)) with (bpow radix2 1000) in K. apply Rabs_le_inv in K.
    apply Rle_lt_trans with (bpow radix2 1000); [|apply bpow_lt; lia]. apply Rabs_le. apply rnd_between; [now apply fmt_opp|easy|easy]. }
  destruct (F_mul x y X1 Y1 BB) as [S1 S2]. destruct (F_of_Z_exact 0 eq_refl) as [Z1 Z2]. rewrite ltb_F, S1, Z1, E by easy.
  destruct (Z.ltb_spec (n * m) 0) as [C|C].
  - assert (C' : (n * m <= -1)%Z) by lia. apply IZR_le in C'. apply Rlt_bool_true. apply Rle_lt_trans with (- bpow radix2 (e + f)); [|lra].
    rewrite <- (rnd_id (- bpow radix2 (e + f))) by (apply fmt_opp, fmt_bpow; lia). apply rnd_le. nra.
  - apply IZR_le in C. apply Rlt_bool_false. rewrite <- (rnd_id 0) by easy. apply rnd_le. nra.
Qed.
Lemma units_cmp e n m x y : units e n x -> units e m y -> Bltb x y = (n <? m)%Z /\ Bleb x y = (n <=? m)%Z /\ Beqb x y = (n =? m)%Z.
Proof.
  intros [X1 X2] [Y1 Y2]. assert (B0 : 0 < bpow radix2 e) by apply bpow_gt_0. rewrite ltb_F, leb_F, eqb_F, X2, Y2 by easy. split; [|split].
  - destruct (Z.ltb_spec n m) as [C|C]; [apply IZR_lt in C; apply Rlt_bool_true; nra|apply IZR_le in C; apply Rlt_bool_false; nra].
  - destruct (Z.leb_spec n m) as [C|C]; [apply IZR_le in C; apply Rle_bool_true; nra|apply IZR_lt in C; apply Rle_bool_false; nra].
  - destruct (Z.eqb_spec n m) as [C|C]; [subst; now apply Req_bool_true|]. apply Req_bool_false. intros K. apply C. apply eq_IZR. apply Rmult_eq_reg_r in K; [easy|lra].
Qed.
Lemma units_zero e n x : units e n x -> Beqb x (F_of_Z 0) = (n =? 0)%Z.
Proof. intros H. assert (Z0 : units e 0 (F_of_Z 0)) by (destruct (F_of_Z_exact 0 eq_refl) as [A B]; split; [easy|rewrite A; ring]). apply (units_cmp e n 0 x _ H Z0). Qed.

(** the point with the same coordinates, over the reals *)
Definition rvec (v : vec F) : vec R := mkVec (B2R (vx v)) (B2R (vy v)) (v_valid v).
Definition rseg (s : seg F) : seg R := mkSeg (rvec (s_origin s)) (rvec (s_terminal s)).
(** both coordinates are at most 2^25 units of 2^e in magnitude *)
Definition on_grid (e : Z) (v : vec F) : Prop :=
  exists n m, (Z.abs n <= 2 ^ 25)%Z /\ (Z.abs m <= 2 ^ 25)%Z /\ units e n (vx v) /\ units e m (vy v).
Lemma area_units L e a b c : on_grid e a -> on_grid e b -> on_grid e c -> (-500 <= e <= 400)%Z ->
  exists N, (Z.abs N <= 2 ^ 53)%Z /\ units (e + e) N (@double_signed_area_st F (NumF L) a b c) /\
    double_signed_area_st (rvec a) (rvec b) (rvec c) = IZR N * bpow radix2 (e + e).
Proof.
  intros (ax & ay & A1 & A2 & A3 & A4) (bx & byy & B1 & B2 & B3 & B4) (cx & cy & C1 & C2 & C3 & C4) He.
  exists ((ax - cx) * (byy - cy) + (bx - cx) * (cy - ay))%Z.
  assert (S : forall n m, (Z.abs n <= 2 ^ 25)%Z -> (Z.abs m <= 2 ^ 25)%Z -> (Z.abs (n - m) <= 2 ^ 26)%Z) by (intros; lia).
  assert (P : forall n m, (Z.abs n <= 2 ^ 26)%Z -> (Z.abs m <= 2 ^ 26)%Z -> (Z.abs (n * m) <= 2 ^ 52)%Z) by (intros; rewrite Z.abs_mul; nia).
  pose proof (P _ _ (S ax cx A1 C1) (S byy cy B2 C2)) as P1. pose proof (P _ _ (S bx cx B1 C1) (S cy ay C2 A2)) as P2.
  split; [lia|]. split.
  - unfold double_signed_area_st. cbn [nadd nsub nmul NumF].
    assert (U : forall n m x y, (Z.abs n <= 2 ^ 25)%Z -> (Z.abs m <= 2 ^ 25)%Z -> units e n x -> units e m y -> units e (n - m) (Bminus mode_NE x y)) by (clear - He; intros; apply units_sub; try assumption; lia).
    pose proof (U _ _ _ _ A1 C1 A3 C3) as U1. pose proof (U _ _ _ _ B2 C2 B4 C4) as U2. pose proof (U _ _ _ _ B1 C1 B3 C3) as U3. pose proof (U _ _ _ _ C2 A2 C4 A4) as U4. clear U S P A3 A4 B3 B4 C3 C4.
    set (p := ((ax - cx) * (byy - cy))%Z) in *. set (q := ((bx - cx) * (cy - ay))%Z) in *.
    apply units_add; [apply (units_mul e e (ax - cx) (byy - cy) _ _ U1 U2); [fold p|]|apply (units_mul e e (bx - cx) (cy - ay) _ _ U3 U4); [fold q|]| |]; clearbody p q; clear - P1 P2 He; lia.
  - unfold double_signed_area_st. rnum. unfold rvec. cbn [vx vy]. destruct A3 as [_ ->], A4 as [_ ->], B3 as [_ ->], B4 as [_ ->], C3 as [_ ->], C4 as [_ ->].
    rewrite bpow_plus, plus_IZR, !mult_IZR, !minus_IZR. ring.
Qed.
Lemma grid_fin e v : on_grid e v -> is_finite (vx v) = true /\ is_finite (vy v) = true.
Proof. intros (n & m & _ & _ & [A _] & [B _]). auto. Qed.
Lemma num0_F L : @nlit F (NumF L) 0 1 = F_of_Z 0. Proof. reflexivity. Qed.
Lemma neg_F_R L e a b c a' b' c' : on_grid e a -> on_grid e b -> on_grid e c -> on_grid e a' -> on_grid e b' -> on_grid e c' -> (-250 <= e <= 200)%Z ->
  @nltb F (NumF L) (@nmul F (NumF L) (@double_signed_area_st F (NumF L) a b c) (@double_signed_area_st F (NumF L) a' b' c')) (@nlit F (NumF L) 0 1) =
  Rlt_bool (double_signed_area_st (rvec a) (rvec b) (rvec c) * double_signed_area_st (rvec a') (rvec b') (rvec c')) 0.
Proof.
  intros A B C A' B' C' He. destruct (area_units L e a b c A B C ltac:(lia)) as (N & N1 & N2 & N3). destruct (area_units L e a' b' c' A' B' C' ltac:(lia)) as (M & M1 & M2 & M3).
  rewrite N3, M3. rewrite num0_F. cbn [nltb nmul NumF]. rewrite (units_mul_neg _ _ _ _ _ _ N2 M2 N1 M1) by lia.
  assert (B0 : 0 < bpow radix2 (e + e)) by apply bpow_gt_0.
  replace (IZR N * bpow radix2 (e + e) * (IZR M * bpow radix2 (e + e))) with (IZR (N * M) * (bpow radix2 (e + e) * bpow radix2 (e + e))) by (rewrite mult_IZR; ring).
  assert (B1 : 0 < bpow radix2 (e + e) * bpow radix2 (e + e)) by (apply Rmult_lt_0_compat; easy).
  destruct (Z.ltb_spec (N * M) 0) as [K|K]; [apply IZR_lt in K; symmetry; apply Rlt_bool_true; nra|apply IZR_le in K; symmetry; apply Rlt_bool_false; nra].
Qed.
Lemma zero_F_R L e a b c : on_grid e a -> on_grid e b -> on_grid e c -> (-250 <= e <= 200)%Z ->
  @neqb F (NumF L) (@double_signed_area_st F (NumF L) a b c) (@nlit F (NumF L) 0 1) = Req_bool (double_signed_area_st (rvec a) (rvec b) (rvec c)) 0.
Proof.
  intros A B C He. destruct (area_units L e a b c A B C ltac:(lia)) as (N & N1 & [N2 N2'] & N3). rewrite num0_F. cbn [neqb NumF]. destruct (F_of_Z_exact 0 eq_refl) as [Z1 Z2]. rewrite eqb_F by easy. now rewrite N2', Z1, N3.
Qed.
Lemma veq_F_R L e a b : on_grid e a -> on_grid e b -> @Vector2D_eq F (NumF L) a b = Vector2D_eq (rvec a) (rvec b).
Proof. intros A B. destruct (grid_fin e a A), (grid_fin e b B). unfold Vector2D_eq. cbn [neqb NumF]. rewrite !eqb_F by easy. reflexivity. Qed.
Lemma check_F_R L e s p : on_grid e (s_origin s) -> on_grid e (s_terminal s) -> on_grid e p -> @check_intersects_on_line F (NumF L) s p = check_intersects_on_line (rseg s) (rvec p).
Proof.
  intros A B P. destruct (grid_fin e _ A), (grid_fin e _ B), (grid_fin e _ P). unfold check_intersects_on_line. cbn [neqb nleb NumF]. rewrite !eqb_F, !leb_F by easy. reflexivity.
Qed.
Lemma exist_F_R L e s o : on_grid e (s_origin s) -> on_grid e (s_terminal s) -> on_grid e (s_origin o) -> on_grid e (s_terminal o) -> (-250 <= e <= 200)%Z ->
  @Segment2D_exist_intersection_seg F (NumF L) s o = Segment2D_exist_intersection_seg (rseg s) (rseg o).
Proof.
  intros A B C D He. unfold Segment2D_exist_intersection_seg.
  rewrite !(neg_F_R L e), !(zero_F_R L e), !(veq_F_R L e), !(check_F_R L e) by assumption. reflexivity.
Qed.
Theorem C97_area_F : forall (L : libm) (e : Z) (a b c : vec F), (-250 <= e <= 200)%Z -> on_grid e a -> on_grid e b -> on_grid e c ->
  is_finite (@double_signed_area_st F (NumF L) a b c) = true /\
  B2R (@double_signed_area_st F (NumF L) a b c) = cross (psub (pt (rvec b)) (pt (rvec a))) (psub (pt (rvec c)) (pt (rvec a))) /\
  (@tri_ccw F (NumF L) a b c = true <-> cross (psub (pt (rvec b)) (pt (rvec a))) (psub (pt (rvec c)) (pt (rvec a))) > 0).
Proof.
  intros L e a b c He A B C. destruct (area_units L e a b c A B C ltac:(lia)) as (N & N1 & [N2 N2'] & N3).
  assert (E : B2R (@double_signed_area_st F (NumF L) a b c) = cross (psub (pt (rvec b)) (pt (rvec a))) (psub (pt (rvec c)) (pt (rvec a)))).
  { rewrite N2', <- N3. unfold double_signed_area_st. rnum. unfold cross, psub, px, py, pt, rvec. cbn. ring. }
  split; [easy|]. split; [easy|]. unfold tri_ccw. cbn [nltb NumF]. rewrite num0_F. destruct (F_of_Z_exact 0 eq_refl) as [Z1 Z2]. rewrite ltb_F by easy. rewrite Z1, E. rewrite Rlt_bool_iff. lra.
Qed.
Theorem C97_exist_intersection_F : forall (L : libm) (e : Z) (s o : seg F), (-250 <= e <= 200)%Z ->
  on_grid e (s_origin s) -> on_grid e (s_terminal s) -> on_grid e (s_origin o) -> on_grid e (s_terminal o) ->
  exists b, @Segment2D_exist_intersection F (NumF L) s (VSeg o) = VBool b /\
    (b = true <-> exists q, spts (rseg s) q /\ spts (rseg o) q).
Proof.
  intros L e s o He A B C D. eexists. split; [reflexivity|]. rewrite (exist_F_R L e) by assumption. apply exist_intersection_seg_R.
Qed.
Lemma Fd_grid n m e : (Z.abs n <= 2 ^ 25)%Z -> (Z.abs m <= 2 ^ 25)%Z -> (-250 <= e <= 200)%Z -> on_grid e (mkVec (Fd n e) (Fd m e) true).
Proof.
  intros Hn Hm He. exists n, m. split; [easy|]. split; [easy|].
  assert (U : forall k, (Z.abs k <= 2 ^ 25)%Z -> units e k (Fd k e)). { intros k Hk. destruct (normalize_exact k e false) as [E1 E2]; [apply fmt_F2R; lia|apply small_lt_emax with (Rabs (IZR k * bpow radix2 e)); [apply Rle_refl|apply (units_small _ _ 25); lia]|]. split; easy. }
  split; now apply U.
Qed.
Example C97_nonvacuous : on_grid (-1) (mkVec (Fd 7 (-1)) (Fd (-3) (-1)) true). Proof. apply Fd_grid; lia. Qed.

(** not so for tiny segments: a plus sign of size 2^-300 *)
Lemma Fd_exact m e : (Z.abs m < 2 ^ 53)%Z -> (-1074 <= e <= 900)%Z -> B2R (Fd m e) = IZR m * bpow radix2 e.
Proof. intros Hm He. destruct (normalize_exact m e false) as [E _]; [apply fmt_F2R; lia|apply small_lt_emax with (Rabs (IZR m * bpow radix2 e)); [apply Rle_refl|apply (units_small _ _ 53); lia]|]. exact E. Qed.
Theorem C97_tiny_refuted_F : forall L : libm, exists s o : seg F,
  @Segment2D_exist_intersection F (NumF L) s (VSeg o) = VBool false /\ spts (rseg s) (0, 0) /\ spts (rseg o) (0, 0).
Proof.
  intros L. exists (mkSeg (mkVec (Fd (-1) (-300)) (F_of_Z 0) true) (mkVec (Fd 1 (-300)) (F_of_Z 0) true)), (mkSeg (mkVec (F_of_Z 0) (Fd (-1) (-300)) true) (mkVec (F_of_Z 0) (Fd 1 (-300)) true)).
  split; [vm_compute; reflexivity|]. destruct (F_of_Z_exact 0 eq_refl) as [Z1 _].
  unfold spts, rseg, rvec, pt, on_seg. cbn [s_origin s_terminal vx vy]. rewrite Z1, !Fd_exact by lia.
  split; exists (1/2); (split; [lra|]); generalize (bpow radix2 (-300)); intros b; apply point_eq; cbn [lerp px py fst snd]; lra.
Qed.
(** nor for ordinary decimals: (-0.8,0.6)-(0.2,-0.4) and (-0.3,0.1)-(1,1) do
    not meet, but are reported to *)
Theorem C97_rounding_refuted_F : forall L : libm, exists s o : seg F,
  @Segment2D_exist_intersection F (NumF L) s (VSeg o) = VBool true /\ ~ exists q, spts (rseg s) q /\ spts (rseg o) q.
Proof.
  intros L. exists (mkSeg (mkVec (Fd (-3602879701896397) (-52)) (Fd 5404319552844595 (-53)) true) (mkVec (Fd 3602879701896397 (-54)) (Fd (-3602879701896397) (-53)) true)),
    (mkSeg (mkVec (Fd (-5404319552844595) (-54)) (Fd 3602879701896397 (-55)) true) (mkVec (F_of_Z 1) (F_of_Z 1) true)).
  split; [vm_compute; reflexivity|]. rewrite <- exist_intersection_seg_R. apply not_true_iff_false.
  destruct (F_of_Z_exact 1 eq_refl) as [Z1 _]. unfold rseg, rvec. cbn [s_origin s_terminal vx vy v_valid]. rewrite Z1, !Fd_exact by lia.
  replace (bpow radix2 (-52)) with (8 / 36028797018963968) by (vm_compute; lra). replace (bpow radix2 (-53)) with (4 / 36028797018963968) by (vm_compute; lra).
  replace (bpow radix2 (-54)) with (2 / 36028797018963968) by (vm_compute; lra). replace (bpow radix2 (-55)) with (1 / 36028797018963968) by (vm_compute; lra).
  unfold Segment2D_exist_intersection_seg, double_signed_area_st, Vector2D_eq. rnum. cbn [s_origin s_terminal vx vy].
  rewrite (Rlt_bool_false (_ * _) 0) by lra. cbn [andb]. rewrite !Req_bool_false by lra. reflexivity.
Qed.

(** ** C98 *)
Theorem C98_bounding_box_F : forall L : libm, exists vs : list (vec F), List.length vs = 3%nat /\ exists v bb, In v vs /\
  @Polygon2D_get_bounding_box F (NumF L) vs = Ok bb /\ @Rect2D_contains F (NumF L) bb v = false /\
  (forall allow, @Polygon2D_contains F (NumF L) vs v allow = Ok false).
Proof.
  intros L. exists [mkVec (F_of_Z (-1)) (F_of_Z 0) true; mkVec (Fd 1 (-60)) (F_of_Z 0) true; mkVec (F_of_Z 0) (F_of_Z 1) true]. split; [reflexivity|].
  exists (mkVec (Fd 1 (-60)) (F_of_Z 0) true). eexists. split; [right; left; reflexivity|]. split; [reflexivity|]. split; [vm_compute; reflexivity|].
  intros []; vm_compute; reflexivity.
Qed.
