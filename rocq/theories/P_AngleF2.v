(** * P_AngleF2: angle arithmetic in doubles is accurate (C132) and the left,
    right and interval tests have exactly known thresholds (C133) *)
From Coq Require Import ZArith List Bool String Reals Lra Lia Psatz.
From Flocq Require Import Core BinarySingleNaN Plus_error.
From Verif Require Import Base Types NumR NumF R_Tac Spec M_Angle L_Angle P_Angle L_Float P_AngleF P_Float P_Robust.
Import ListNotations.
Local Open Scope R_scope.

(** the unit: 2^-45 degrees *)
Definition u45 : R := / IZR (2 ^ 45).
Lemma u45_bpow : u45 = bpow radix2 (-45). Proof. reflexivity. Qed.

(** ** Specification: histories of turns over the ideal reals *)
Definition arg_val (x : ang_arg F) : R := match x with AA b => B2R (a_degree b) | AN y => B2R y end.
(** the direction after one operation, not reduced modulo 360 *)
Definition ideal_op (o : angle_op F) (d : R) : R :=
  match o with
  | OpSetDegree x => B2R x | OpSetAngle b => B2R (a_degree b)
  | OpIadd x | OpAdd x => d + arg_val x
  | OpIsub x | OpSub x => d - arg_val x
  | OpNeg => - d
  | OpReverse | OpReverseAngle => d + 180
  | _ => d
  end.
(** operands: well-formed angles, or numbers of magnitude at most 330 *)
Definition turn_arg (x : ang_arg F) : Prop :=
  match x with AA b => good_degree (a_degree b) | AN y => is_finite y = true /\ Rabs (B2R y) <= 330 end.
Definition turn_op (o : angle_op F) : Prop :=
  match o with
  | OpSetDegree x => is_finite x = true
  | OpSetAngle b => good_degree (a_degree b)
  | OpIadd x | OpIsub x | OpAdd x | OpSub x => turn_arg x
  | OpImul _ | OpMul _ | OpFloordiv _ => False
  | _ => True
  end.
Definition ideal_run (os : list (angle_op F)) (d : R) : R := fold_left (fun d o => ideal_op o d) os d.

Section Arith.
  Variable L : libm.
  Local Notation NF := (NumF L).
  Lemma of_num_rnd (x : F) : is_finite x = true -> exists c, @AngleDeg_of_num F NF x = Ok c /\ good_degree (a_degree c) /\ cong360 (B2R (a_degree c)) (B2R x).
  Proof. intros H. unfold AngleDeg_of_num. destruct (normal_F L x H) as (d & -> & H1 & H2 & H3 & _). cbn [bind]. eexists. split; [reflexivity|]. split; [now split|exact H3]. Qed.
  Lemma add_num_F (x y : F) : is_finite x = true -> is_finite y = true -> Rabs (B2R x + B2R y) <= 512 ->
    exists c, @AngleDeg_of_num F NF (Bplus mode_NE x y) = Ok c /\ good_degree (a_degree c) /\ exists z, cong360 (B2R (a_degree c)) z /\ Rabs (z - (B2R x + B2R y)) <= u45.
  Proof.
    intros X Y B. destruct (rnd_err (B2R x + B2R y) 9 ltac:(lia)) as [E1 E2]; [change (bpow radix2 9) with 512; exact B|].
    destruct (F_add x y X Y) as [K1 K2]; [apply (finite_lt 9); [lia|exact E2]|].
    destruct (of_num_rnd _ K2) as (c & C1 & C2 & C3). exists c. split; [exact C1|]. split; [exact C2|]. exists (rnd64 (B2R x + B2R y)). rewrite <- K1 at 1. split; [exact C3|]. rewrite u45_bpow. exact E1.
  Qed.
  Lemma sub_num_F (x y : F) : is_finite x = true -> is_finite y = true -> Rabs (B2R x - B2R y) <= 512 ->
    exists c, @AngleDeg_of_num F NF (Bminus mode_NE x y) = Ok c /\ good_degree (a_degree c) /\ exists z, cong360 (B2R (a_degree c)) z /\ Rabs (z - (B2R x - B2R y)) <= u45.
  Proof.
    intros X Y B. destruct (rnd_err (B2R x - B2R y) 9 ltac:(lia)) as [E1 E2]; [change (bpow radix2 9) with 512; exact B|].
    destruct (F_sub x y X Y) as [K1 K2]; [apply (finite_lt 9); [lia|exact E2]|].
    destruct (of_num_rnd _ K2) as (c & C1 & C2 & C3). exists c. split; [exact C1|]. split; [exact C2|]. exists (rnd64 (B2R x - B2R y)). rewrite <- K1 at 1. split; [exact C3|]. rewrite u45_bpow. exact E1.
  Qed.
  Lemma arg_num x : turn_arg x -> exists y, @ang_num F NF x = Ok y /\ is_finite y = true /\ B2R y = arg_val x /\ Rabs (B2R y) <= 330 /\
    (forall a, @AngleDeg_sub F NF a x = @AngleDeg_of_num F NF (Bminus mode_NE (a_degree a) y)).
  Proof.
    destruct x as [b|y]; cbn [turn_arg ang_num arg_val].
    - intros [H1 H2]. exists (a_degree b). rewrite degree_F_good by (right; now split). repeat split; try assumption. apply Rabs_le; lra.
    - intros [H1 H2]. exists y. repeat split; assumption.
  Qed.
  Lemma reverse_num_F a : good_degree (a_degree a) -> Rabs (B2R (a_degree (@AngleDeg_reverse F NF a)) - (B2R (a_degree a) + 180)) <= u45 \/
     Rabs (B2R (a_degree (@AngleDeg_reverse F NF a)) - (B2R (a_degree a) - 180)) <= u45.
  Proof.
    intros [Hf Hr]. unfold AngleDeg_reverse. cbn [nleb nneg nsub nadd nlit NumF F_lit].
    destruct (F_of_Z_exact 0 eq_refl) as [Z1 Z2]. destruct (F_of_Z_exact 180 eq_refl) as [B1 B2].
    rewrite leb_F by easy. rewrite Z1. rewrite u45_bpow. destruct (Rle_bool_spec 0 (B2R (a_degree a))); cbn [a_degree]; [right|left].
    - destruct (rnd_err (180 - B2R (a_degree a)) 9 ltac:(lia)) as [E1 EB]; [change (bpow radix2 9) with 512; apply Rabs_le; lra|].
      destruct (F_sub (F_of_Z 180) (a_degree a) B2 Hf) as [K1 K2]; [rewrite B1; apply (finite_lt 9); [lia|exact EB]|].
      rewrite B2R_Bopp, K1, B1. rewrite <- Rabs_Ropp. replace (- _) with (rnd64 (180 - B2R (a_degree a)) - (180 - B2R (a_degree a))) by ring. exact E1.
    - destruct (rnd_err (180 + B2R (a_degree a)) 9 ltac:(lia)) as [E1 EB]; [change (bpow radix2 9) with 512; apply Rabs_le; lra|].
      destruct (F_add (F_of_Z 180) (a_degree a) B2 Hf) as [K1 K2]; [rewrite B1; apply (finite_lt 9); [lia|exact EB]|].
      rewrite K1, B1. replace (_ + 180) with (180 + B2R (a_degree a)) by ring. exact E1.
  Qed.

  (** one operation: total, and off by at most 2^-45 degrees *)
  Lemma turn_step o a : turn_op o -> good_degree (a_degree a) ->
    exists c, @angle_step F NF o a = Ok c /\ good_degree (a_degree c) /\
      forall d t, (exists y, cong360 (B2R (a_degree a)) y /\ Rabs (y - d) <= t) -> 0 <= t -> exists y, cong360 (B2R (a_degree c)) y /\ Rabs (y - ideal_op o d) <= t + u45.
  Proof.
    intros Ho Ha. assert (Hg : good_or_nan (a_degree a)) by now right. assert (U : 0 < u45) by (rewrite u45_bpow; apply bpow_gt_0).
    assert (SH : forall (c : angle F) (b : R) d t, (exists z, cong360 (B2R (a_degree c)) z /\ Rabs (z - (B2R (a_degree a) + b)) <= u45) ->
       (exists y, cong360 (B2R (a_degree a)) y /\ Rabs (y - d) <= t) -> exists y, cong360 (B2R (a_degree c)) y /\ Rabs (y - (d + b)) <= t + u45).
    { intros c b d t (z & Z1 & Z2) (y & Y1 & Y2). exists (y + (z - B2R (a_degree a))). split.
      - eapply cong360_trans; [exact Z1|]. replace z with (B2R (a_degree a) + (z - B2R (a_degree a))) at 1 by ring. apply cong360_add; [exact Y1|apply cong360_refl].
      - replace (_ - _) with ((y - d) + (z - (B2R (a_degree a) + b))) by ring. eapply Rle_trans; [apply Rabs_triang|]. lra. }
    assert (EX : forall (c : angle F) d t, cong360 (B2R (a_degree c)) d -> 0 <= t -> exists y, cong360 (B2R (a_degree c)) y /\ Rabs (y - d) <= t + u45).
    { intros c d t C T. exists d. split; [exact C|]. rewrite Rminus_eq_0, Rabs_R0. lra. }
    assert (SAME : forall d t, (exists y, cong360 (B2R (a_degree a)) y /\ Rabs (y - d) <= t) -> exists y, cong360 (B2R (a_degree a)) y /\ Rabs (y - d) <= t + u45).
    { intros d t (y & Y1 & Y2). exists y. split; [exact Y1|lra]. }
    assert (AB : Rabs (B2R (a_degree a)) <= 180) by (apply Rabs_le; destruct Ha; lra).
    assert (SELF : @AngleDeg_of_num F NF (a_degree a) = Ok a).
    { unfold AngleDeg_of_num. destruct (normal_F L (a_degree a) (proj1 Ha)) as (d & -> & _ & _ & _ & E). cbn [bind]. rewrite E by apply Ha. now destruct a. }
    assert (REV : forall d t, (exists y, cong360 (B2R (a_degree a)) y /\ Rabs (y - d) <= t) -> exists y, cong360 (B2R (a_degree (@AngleDeg_reverse F NF a))) y /\ Rabs (y - (d + 180)) <= t + u45).
    { intros d t HY. apply SH; [|exact HY]. destruct (reverse_num_F a Ha) as [K|K].
      - eexists. split; [apply cong360_refl|exact K].
      - exists (B2R (a_degree (@AngleDeg_reverse F NF a)) + 360). split; [exists (-1)%Z; lra|]. replace (_ - _) with (B2R (a_degree (@AngleDeg_reverse F NF a)) - (B2R (a_degree a) - 180)) by ring. exact K. }
    destruct o; cbn [angle_step turn_op ideal_op] in *; try contradiction.
    - unfold AngleDeg_set_degree. destruct (of_num_rnd x Ho) as (c & C1 & C2 & C3). unfold AngleDeg_of_num in C1. rewrite C1. exists c. split; [reflexivity|]. split; [exact C2|]. intros d t _ T. now apply EX.
    - unfold AngleDeg_set_angle. rewrite degree_F_good by now right. cbn [bind]. eexists. split; [reflexivity|]. split; [exact Ho|]. intros d t _ T. apply EX; [apply cong360_refl|exact T].
    - unfold AngleDeg_iadd. destruct (arg_num x Ho) as (y & -> & Y1 & Y2 & Y3 & _). cbn [bind nadd NumF]. destruct (add_num_F (a_degree a) y (proj1 Ha) Y1) as (c & C1 & C2 & C3).
      { eapply Rle_trans; [apply Rabs_triang|lra]. } rewrite C1. exists c. split; [reflexivity|]. split; [exact C2|]. intros d t HY T. rewrite <- Y2. apply SH; assumption.
    - unfold AngleDeg_isub. destruct (arg_num x Ho) as (y & -> & Y1 & Y2 & Y3 & _). cbn [bind nsub NumF]. destruct (sub_num_F (a_degree a) y (proj1 Ha) Y1) as (c & C1 & C2 & C3).
      { eapply Rle_trans; [apply Rabs_triang|rewrite Rabs_Ropp; lra]. } rewrite C1. exists c. split; [reflexivity|]. split; [exact C2|]. intros d t HY T. rewrite <- Y2. apply SH; assumption.
    - unfold AngleDeg_add. destruct (arg_num x Ho) as (y & -> & Y1 & Y2 & Y3 & _). cbn [bind nadd NumF]. destruct (add_num_F (a_degree a) y (proj1 Ha) Y1) as (c & C1 & C2 & C3).
      { eapply Rle_trans; [apply Rabs_triang|lra]. } rewrite C1. exists c. split; [reflexivity|]. split; [exact C2|]. intros d t HY T. rewrite <- Y2. apply SH; assumption.
    - destruct (arg_num x Ho) as (y & _ & Y1 & Y2 & Y3 & ->). destruct (sub_num_F (a_degree a) y (proj1 Ha) Y1) as (c & C1 & C2 & C3).
      { eapply Rle_trans; [apply Rabs_triang|rewrite Rabs_Ropp; lra]. } rewrite C1. exists c. split; [reflexivity|]. split; [exact C2|]. intros d t HY T. rewrite <- Y2. apply SH; assumption.
    - unfold AngleDeg_neg. cbn [nneg NumF]. destruct (of_num_rnd (Bopp (a_degree a))) as (c & C1 & C2 & C3); [rewrite is_finite_Bopp; apply Ha|]. rewrite C1. exists c. split; [reflexivity|]. split; [exact C2|].
      intros d t (y & Y1 & Y2) T. exists (- y). rewrite B2R_Bopp in C3. split; [eapply cong360_trans; [exact C3|now apply cong360_opp]|]. replace (- y - - d) with (- (y - d)) by ring. rewrite Rabs_Ropp. lra.
    - unfold AngleDeg_copy. rewrite SELF. exists a. split; [reflexivity|]. split; [exact Ha|]. intros d t HY _. now apply SAME.
    - unfold AngleDeg_of_angle. rewrite degree_F_good by exact Hg. cbn [bind]. rewrite SELF. exists a. split; [reflexivity|]. split; [exact Ha|]. intros d t HY _. now apply SAME.
    - eexists. split; [reflexivity|]. split; [now apply reverse_F_good|]. intros d t HY _. now apply REV.
    - unfold AngleDeg_reverse_angle. rewrite degree_F_good by exact Hg. cbn [bind]. rewrite SELF. cbn [bind]. eexists. split; [reflexivity|]. split; [now apply reverse_F_good|]. intros d t HY _. now apply REV.
  Qed.
End Arith.

(** After any history of turns the angle is off by at most 2^-45 degrees per
    operation from the ideal direction, modulo 360. *)
Theorem C132_history_accuracy_F : forall (L : libm) (os : list (angle_op F)) (a : angle F), Forall turn_op os ->
  is_finite (a_degree a) = true -> -180 <= B2R (a_degree a) <= 180 ->
  exists b, @angle_run F (NumF L) os a = Ok b /\ is_finite (a_degree b) = true /\ -180 <= B2R (a_degree b) <= 180 /\
    exists y, cong360 (B2R (a_degree b)) y /\ Rabs (y - ideal_run os (B2R (a_degree a))) <= INR (List.length os) * u45.
Proof.
  intros L os a Hos H1 H2. assert (U : 0 < u45) by (rewrite u45_bpow; apply bpow_gt_0).
  assert (G : forall d t, 0 <= t -> (exists y, cong360 (B2R (a_degree a)) y /\ Rabs (y - d) <= t) ->
    exists b, @angle_run F (NumF L) os a = Ok b /\ good_degree (a_degree b) /\ exists y, cong360 (B2R (a_degree b)) y /\ Rabs (y - ideal_run os d) <= t + INR (List.length os) * u45).
  { assert (Ha : good_degree (a_degree a)) by now split. clear H1 H2. revert a Ha. induction Hos as [|o os Ho Hos IH]; intros a Ha d t T HY.
    - exists a. split; [reflexivity|]. split; [exact Ha|]. destruct HY as (y & Y1 & Y2). exists y. split; [exact Y1|]. cbn. lra.
    - destruct (turn_step L o a Ho Ha) as (c & C1 & C2 & C3). cbn [angle_run]. rewrite C1. cbn [bind].
      destruct (IH c C2 (ideal_op o d) (t + u45) ltac:(lra) (C3 d t HY T)) as (b & B1 & B2 & y & Y1 & Y2). exists b. split; [exact B1|]. split; [exact B2|].
      exists y. split; [exact Y1|]. cbn [List.length]. rewrite S_INR. unfold ideal_run in *. cbn [fold_left]. lra. }
  destruct (G (B2R (a_degree a)) 0 (Rle_refl 0)) as (b & B1 & [B2 B3] & y & Y1 & Y2).
  { exists (B2R (a_degree a)). split; [apply cong360_refl|]. rewrite Rminus_eq_0, Rabs_R0. lra. }
  exists b. repeat (split; [assumption|]). exists y. split; [exact Y1|lra].
Qed.
Example C132_nonvacuous : Forall turn_op [OpIadd (AN (F_of_Z 100)); OpReverse; OpSub (AA (mkAngle (F_of_Z 170))); OpNeg].
Proof.
  destruct (F_of_Z_exact 100 eq_refl) as [E1 E2]. destruct (F_of_Z_exact 170 eq_refl) as [E3 E4].
  repeat constructor; cbn [turn_op turn_arg a_degree]; try assumption; rewrite ?E1, ?E3; try lra. rewrite Rabs_pos_eq; lra.
Qed.

(** ** C133: thresholds of the left and right tests *)
Lemma tie_up : rnd64 (180 - bpow radix2 (-46)) = 180.
Proof.
  destruct (F_of_Z_exact 180 eq_refl) as [E1 E2]. assert (EF : B2R (Fd 1 (-46)) = bpow radix2 (-46)) by (rewrite Fd_exact by (cbn; lia); lra).
  assert (F1 : is_finite (Fd 1 (-46)) = true) by (vm_compute; reflexivity).
  destruct (F_sub (F_of_Z 180) (Fd 1 (-46)) E2 F1) as [K _].
  { rewrite E1, EF. apply (finite_lt 9); [lia|]. apply rnd_err; [lia|]. change (bpow radix2 9) with 512. assert (bpow radix2 (-46) <= 1) by (apply (bpow_le radix2 (-46) 0); lia). pose proof (bpow_ge_0 radix2 (-46)). apply Rabs_le. lra. }
  rewrite E1, EF in K. rewrite <- K. replace (Bminus mode_NE (F_of_Z 180) (Fd 1 (-46))) with (F_of_Z 180) by (apply B2SF_inj; vm_compute; reflexivity). exact E1.
Qed.
Lemma tie_dn : rnd64 (180 + bpow radix2 (-46)) = 180.
Proof.
  destruct (F_of_Z_exact 180 eq_refl) as [E1 E2]. assert (EF : B2R (Fd 1 (-46)) = bpow radix2 (-46)) by (rewrite Fd_exact by (cbn; lia); lra).
  assert (F1 : is_finite (Fd 1 (-46)) = true) by (vm_compute; reflexivity).
  destruct (F_add (F_of_Z 180) (Fd 1 (-46)) E2 F1) as [K _].
  { rewrite E1, EF. apply (finite_lt 9); [lia|]. apply rnd_err; [lia|]. change (bpow radix2 9) with 512. assert (bpow radix2 (-46) <= 1) by (apply (bpow_le radix2 (-46) 0); lia). pose proof (bpow_ge_0 radix2 (-46)). apply Rabs_le. lra. }
  rewrite E1, EF in K. rewrite <- K. replace (Bplus mode_NE (F_of_Z 180) (Fd 1 (-46))) with (F_of_Z 180) by (apply B2SF_inj; vm_compute; reflexivity). exact E1.
Qed.
Lemma bp46 : bpow radix2 (-45) = 2 * bpow radix2 (-46). Proof. apply (bpow_plus radix2 1 (-46)). Qed.
Lemma fmt_near (m : Z) : (Z.abs m < 2 ^ 53)%Z -> fmt64 (IZR m * bpow radix2 (-45)).
Proof. intros H. apply (fmt_F2R m (-45)); lia. Qed.
Lemma lt180 d : rnd64 d < 180 <-> d < 180 - bpow radix2 (-46).
Proof.
  split.
  - intros H. apply Rnot_le_lt. intros K. apply rnd_le in K. rewrite tie_up in K. lra.
  - intros H. assert (FU : fmt64 (180 - bpow radix2 (-45))).
    { replace (180 - bpow radix2 (-45)) with (IZR (180 * 2 ^ 45 - 1) * bpow radix2 (-45)); [apply fmt_near; reflexivity|]. rewrite minus_IZR, mult_IZR. change (IZR (2 ^ 45)) with (bpow radix2 45). rewrite Rmult_minus_distr_r, Rmult_assoc, <- bpow_plus. change (bpow radix2 (45 + -45)) with 1. lra. }
    destruct (Rle_dec d (180 - bpow radix2 (-45))) as [C|C].
    + apply rnd_le in C. rewrite (rnd_id _ FU) in C. pose proof (bpow_gt_0 radix2 (-45)). lra.
    + (* d is nearer to 180 - 2^-45 *)
      destruct (round_N_pt radix2 (FLT_exp (-1074) 53) (fun n => negb (Z.even n)) d) as [P1 P2]. fold (rnd64 d) in P1, P2.
      specialize (P2 _ FU). rewrite bp46 in *. assert (Rabs (180 - 2 * bpow radix2 (-46) - d) < bpow radix2 (-46)) by (apply Rabs_def1; lra).
      apply Rnot_le_lt. intros K. assert (180 - d <= Rabs (rnd64 d - d)) by (rewrite Rabs_pos_eq; lra). lra.
Qed.
Lemma lt_180 d : rnd64 d < -180 <-> d < -180 - bpow radix2 (-46).
Proof.
  split.
  - intros H. apply Rnot_le_lt. intros K. assert (K' : - d <= 180 + bpow radix2 (-46)) by lra. apply rnd_le in K'. rewrite tie_dn, rnd_opp in K'. lra.
  - intros H. assert (FU : fmt64 (- (180 + bpow radix2 (-45)))).
    { apply fmt_opp. replace (180 + bpow radix2 (-45)) with (IZR (180 * 2 ^ 45 + 1) * bpow radix2 (-45)); [apply fmt_near; reflexivity|]. rewrite plus_IZR, mult_IZR. change (IZR (2 ^ 45)) with (bpow radix2 45). rewrite Rmult_plus_distr_r, Rmult_assoc, <- bpow_plus. change (bpow radix2 (45 + -45)) with 1. lra. }
    destruct (Rle_dec d (- (180 + bpow radix2 (-45)))) as [C|C].
    + apply rnd_le in C. rewrite (rnd_id _ FU) in C. pose proof (bpow_gt_0 radix2 (-45)). lra.
    + destruct (round_N_pt radix2 (FLT_exp (-1074) 53) (fun n => negb (Z.even n)) d) as [P1 P2]. fold (rnd64 d) in P1, P2.
      specialize (P2 _ FU). rewrite bp46 in *. assert (Rabs (- (180 + 2 * bpow radix2 (-46)) - d) < bpow radix2 (-46)) by (apply Rabs_def1; lra).
      apply Rnot_le_lt. intros K. assert (d < -180) by (pose proof (bpow_gt_0 radix2 (-46)); lra). assert (-180 - d <= Rabs (rnd64 d - d)) by (rewrite Rabs_pos_eq; lra). lra.
Qed.
Lemma sub_sign x y : fmt64 x -> fmt64 y -> (0 < rnd64 (x - y) <-> y < x) /\ (0 <= rnd64 (x - y) <-> y <= x).
Proof.
  intros X Y. assert (Z0 : rnd64 0 = 0) by (apply rnd_id, (fmt_Z 0); reflexivity).
  assert (NZ : x - y <> 0 -> rnd64 (x - y) <> 0).
  { intros N. unfold rnd64. apply (round_plus_neq_0 radix2 (FLT_exp (-1074) 53) (Znearest (fun n => negb (Z.even n))) x (- y)); [exact X|now apply fmt_opp|exact N]. }
  destruct (Rtotal_order x y) as [C|[->|C]].
  - assert (K := rnd_le (x - y) 0 ltac:(lra)). rewrite Z0 in K. specialize (NZ ltac:(lra)). split; split; lra.
  - rewrite Rminus_eq_0, Z0. split; split; lra.
  - assert (K := rnd_le 0 (x - y) ltac:(lra)). rewrite Z0 in K. specialize (NZ ltac:(lra)). split; split; lra.
Qed.

(** the rule of the tests on ideal degrees, with the window in which doubles
    cannot see that a turn is short of half a circle *)
Definition left_rule (d : R) : Prop := 0 < d < 180 - bpow radix2 (-46) \/ d < -180 - bpow radix2 (-46).
Definition left_equal_rule (d : R) : Prop := 0 <= d < 180 - bpow radix2 (-46) \/ d < -180 - bpow radix2 (-46).
Lemma test_F (x y : F) : good_degree x -> good_degree y ->
  let diff := Bminus mode_NE y x in
  (((Bltb (F_of_Z 0) diff && Bltb diff (F_of_Z 180)) || Bltb diff (F_of_Z (-180)))%bool = true <-> left_rule (B2R y - B2R x)) /\
  (((Bleb (F_of_Z 0) diff && Bltb diff (F_of_Z 180)) || Bltb diff (F_of_Z (-180)))%bool = true <-> left_equal_rule (B2R y - B2R x)).
Proof.
  intros [X1 X2] [Y1 Y2] diff. destruct (F_sub y x Y1 X1) as [K1 K2].
  { apply (finite_lt 9); [lia|]. apply rnd_err; [lia|]. change (bpow radix2 9) with 512. apply Rabs_le. lra. }
  fold diff in K1, K2. destruct (F_of_Z_exact 0 eq_refl) as [Z1 Z2]. destruct (F_of_Z_exact 180 eq_refl) as [B1 B2]. destruct (F_of_Z_exact (-180) eq_refl) as [A1 A2].
  rewrite !ltb_F, leb_F by easy. rewrite Z1, B1, A1, K1. destruct (sub_sign (B2R y) (B2R x) (fmt_F y) (fmt_F x)) as [S1 S2].
  rewrite !orb_true_iff, !andb_true_iff. unfold left_rule, left_equal_rule. rewrite <- lt180, <- lt_180.
  destruct (Rlt_bool_spec 0 (rnd64 (B2R y - B2R x))), (Rle_bool_spec 0 (rnd64 (B2R y - B2R x))), (Rlt_bool_spec (rnd64 (B2R y - B2R x)) 180), (Rlt_bool_spec (rnd64 (B2R y - B2R x)) (-180));
    split; split; intros K; repeat match goal with H : _ \/ _ |- _ => destruct H | H : _ /\ _ |- _ => destruct H end; try discriminate; try (exfalso; lra); try (left; lra); try (right; lra); try (left; split; reflexivity); try (right; reflexivity).
Qed.

Theorem C133_side_tests_F : forall (L : libm) (a b : angle F), good_degree (a_degree a) -> good_degree (a_degree b) ->
  let d := B2R (a_degree b) - B2R (a_degree a) in
  (exists r, @AngleDeg_is_left_of F (NumF L) a (AA b) = Ok r /\ (r = true <-> left_rule d)) /\
  (exists r, @AngleDeg_is_right_of F (NumF L) a (AA b) = Ok r /\ (r = true <-> left_rule (- d))) /\
  (exists r, @AngleDeg_is_left_equal_of F (NumF L) a (AA b) = Ok r /\ (r = true <-> left_equal_rule d)) /\
  (exists r, @AngleDeg_is_right_equal_of F (NumF L) a (AA b) = Ok r /\ (r = true <-> left_equal_rule (- d))).
Proof.
  intros L a b Ha Hb d. assert (ED : - d = B2R (a_degree a) - B2R (a_degree b)) by (unfold d; ring). rewrite ED.
  unfold AngleDeg_is_left_of, AngleDeg_is_right_of, AngleDeg_is_left_equal_of, AngleDeg_is_right_equal_of, to_angle. cbn [bind].
  rewrite !degree_F_good by now right. cbn [bind nsub nltb nleb nlit NumF F_lit].
  destruct (test_F _ _ Ha Hb) as [T1 T2]. destruct (test_F _ _ Hb Ha) as [T3 T4].
  repeat split; eexists; (split; [reflexivity|assumption]).
Qed.
Theorem C133_is_within_F : forall (L : libm) (x l r : angle F), good_degree (a_degree x) -> good_degree (a_degree l) -> good_degree (a_degree r) ->
  exists w, @AngleDeg_is_within F (NumF L) x (AA l) (AA r) = Ok w /\
    let lr := B2R (a_degree r) - B2R (a_degree l) in let lx := B2R (a_degree x) - B2R (a_degree l) in let xr := B2R (a_degree r) - B2R (a_degree x) in
    (w = true <-> (left_equal_rule lr /\ left_equal_rule lx /\ left_equal_rule xr) \/ (~ left_equal_rule lr /\ (left_equal_rule lx \/ left_equal_rule xr))).
Proof.
  intros L x l r Hx Hl Hr. unfold AngleDeg_is_within, to_angle. cbn [bind].
  destruct (C133_side_tests_F L l r Hl Hr) as (_ & _ & (b1 & -> & E1) & _). destruct (C133_side_tests_F L l x Hl Hx) as (_ & _ & (b2 & -> & E2) & _).
  destruct (C133_side_tests_F L x r Hx Hr) as (_ & _ & (b3 & -> & E3) & _). cbn [bind]. cbn zeta in *.
  destruct b1, b2, b3; cbn [bind]; eexists; (split; [reflexivity|]); rewrite <- E1, <- E2, <- E3; intuition (try discriminate; auto).
Qed.
(** Outside the window the tests agree with those on ideal numbers, whose
    meaning is C06 and C07. *)
Definition rang (a : angle F) : angle R := mkAngle (B2R (a_degree a)).
Definition blurred (d : R) : Prop := 180 - bpow radix2 (-46) <= d < 180 \/ -180 - bpow radix2 (-46) <= d < -180.
Theorem C133_agree_F : forall (L : libm) (a b : angle F), good_degree (a_degree a) -> good_degree (a_degree b) ->
  let d := B2R (a_degree b) - B2R (a_degree a) in ~ blurred d -> ~ blurred (- d) ->
  @AngleDeg_is_left_of F (NumF L) a (AA b) = AngleDeg_is_left_of (rang a) (AA (rang b)) /\
  @AngleDeg_is_right_of F (NumF L) a (AA b) = AngleDeg_is_right_of (rang a) (AA (rang b)) /\
  @AngleDeg_is_left_equal_of F (NumF L) a (AA b) = AngleDeg_is_left_equal_of (rang a) (AA (rang b)) /\
  @AngleDeg_is_right_equal_of F (NumF L) a (AA b) = AngleDeg_is_right_equal_of (rang a) (AA (rang b)).
Proof.
  intros L a b Ha Hb d N1 N2. destruct (C133_side_tests_F L a b Ha Hb) as ((r1 & -> & E1) & (r2 & -> & E2) & (r3 & -> & E3) & (r4 & -> & E4)). fold d in E1, E2, E3, E4.
  assert (P : 0 < bpow radix2 (-46)) by apply bpow_gt_0. assert (P1 : bpow radix2 (-46) <= 1) by (apply (bpow_le radix2 (-46) 0); lia).
  assert (Ra : in_range (rang a)) by (unfold in_range, rang; cbn; destruct Ha; lra). assert (Rb : in_range (rang b)) by (unfold in_range, rang; cbn; destruct Hb; lra).
  unfold AngleDeg_is_left_of, AngleDeg_is_right_of, AngleDeg_is_left_equal_of, AngleDeg_is_right_equal_of, to_angle. cbn [bind]. rewrite !degree_in by assumption. cbn [bind]. rnum. unfold rang. cbn [a_degree]. fold d.
  replace (B2R (a_degree a) - B2R (a_degree b)) with (- d) by (unfold d; ring). unfold left_rule, left_equal_rule, blurred in *.
  assert (BE : forall (x y : bool), (x = true <-> y = true) -> x = y) by (intros [] [] [K1 K2]; try reflexivity; [symmetry; now apply K1|now apply K2]).
  repeat split; f_equal; apply BE.
  - rewrite E1, orb_true_iff, andb_true_iff. repeat match goal with |- context [Rlt_bool ?u ?v] => destruct (Rlt_bool_spec u v) end; split; intros K; try (left; split; reflexivity); try (right; reflexivity); try lra; exfalso; repeat match goal with H : _ \/ _ |- _ => destruct H | H : _ /\ _ |- _ => destruct H end; try discriminate; lra.
  - rewrite E2, orb_true_iff, andb_true_iff. repeat match goal with |- context [Rlt_bool ?u ?v] => destruct (Rlt_bool_spec u v) end; split; intros K; try (left; split; reflexivity); try (right; reflexivity); try lra; exfalso; repeat match goal with H : _ \/ _ |- _ => destruct H | H : _ /\ _ |- _ => destruct H end; try discriminate; lra.
  - rewrite E3, orb_true_iff, andb_true_iff. repeat match goal with |- context [Rlt_bool ?u ?v] => destruct (Rlt_bool_spec u v) | |- context [Rle_bool ?u ?v] => destruct (Rle_bool_spec u v) end; split; intros K; try (left; split; reflexivity); try (right; reflexivity); try lra; exfalso; repeat match goal with H : _ \/ _ |- _ => destruct H | H : _ /\ _ |- _ => destruct H end; try discriminate; lra.
  - rewrite E4, orb_true_iff, andb_true_iff. repeat match goal with |- context [Rlt_bool ?u ?v] => destruct (Rlt_bool_spec u v) | |- context [Rle_bool ?u ?v] => destruct (Rle_bool_spec u v) end; split; intros K; try (left; split; reflexivity); try (right; reflexivity); try lra; exfalso; repeat match goal with H : _ \/ _ |- _ => destruct H | H : _ /\ _ |- _ => destruct H end; try discriminate; lra.
Qed.
Example C133_nonvacuous : good_degree (F_of_Z 30) /\ good_degree (F_of_Z (-170)) /\ ~ blurred (-170 - 30) /\ ~ blurred (- (-170 - 30)).
Proof.
  destruct (F_of_Z_exact 30 eq_refl) as [E1 E2]. destruct (F_of_Z_exact (-170) eq_refl) as [E3 E4]. assert (P1 : bpow radix2 (-46) <= 1) by (apply (bpow_le radix2 (-46) 0); lia).
  unfold good_degree, blurred. rewrite E1, E3. repeat split; try assumption; lra.
Qed.
(** In the window two different, not opposite directions are neither left nor
    right of each other. *)
Theorem C133_trichotomy_refuted_F : exists a b : angle F, good_degree (a_degree a) /\ good_degree (a_degree b) /\
  0 < B2R (a_degree b) - B2R (a_degree a) < 180 /\ forall L : libm,
  @AngleDeg_is_left_of F (NumF L) a (AA b) = Ok false /\ @AngleDeg_is_right_of F (NumF L) a (AA b) = Ok false /\ @AngleDeg_eq F (NumF L) a (AA b) = Ok false.
Proof.
  exists (mkAngle (Fd (1 - 90 * 2 ^ 46) (-46))), (mkAngle (F_of_Z 90)). cbn [a_degree]. destruct (F_of_Z_exact 90 eq_refl) as [E1 E2].
  assert (E3 : B2R (Fd (1 - 90 * 2 ^ 46) (-46)) = bpow radix2 (-46) - 90).
  { rewrite Fd_exact by (cbn; lia). rewrite minus_IZR, mult_IZR. change (IZR (2 ^ 46)) with (bpow radix2 46). rewrite Rmult_minus_distr_r, Rmult_assoc, <- bpow_plus. change (bpow radix2 (46 + -46)) with 1. lra. }
  assert (P : 0 < bpow radix2 (-46)) by apply bpow_gt_0. assert (P1 : bpow radix2 (-46) <= 1) by (apply (bpow_le radix2 (-46) 0); lia).
  unfold good_degree. rewrite E1, E3. repeat split; try lra; try (vm_compute; reflexivity).
Qed.
