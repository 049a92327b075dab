(** * P_MirrorF3: soccer_math in a mirror, in doubles (C203) *)
From Coq Require Import ZArith List Bool String Reals Lra Lia.
From Flocq Require Import Core BinarySingleNaN.
From Verif Require Import Base Types NumR NumF R_Tac Spec Abs M_Angle M_Vector M_Line M_Soccer L_Float P_Float P_Soccer2 P_VecF P_AngleF P_TrigF P_PowF P_UnitF2 P_MirrorF P_SwapF P_TurnF.
Import ListNotations.
Local Open Scope R_scope.

(** ** C203 *)
(** A coasting object seen in the mirror: the mirrored travel and end point, for any number of cycles, and the same exception if any. *)
Theorem C203_coast_F : forall (L : libm) (sx sy : bool) (pos vel : vec F) (n : Z) (decay : F),
  let pos' := mirror sx sy pos in let vel' := mirror sx sy vel in
  alike (image sx sy) (@inertia_n_step_travel F (NumF L) vel n decay) (@inertia_n_step_travel F (NumF L) vel' n decay) /\
  alike (image sx sy) (@inertia_n_step_point F (NumF L) pos vel n decay) (@inertia_n_step_point F (NumF L) pos' vel' n decay) /\
  alike (image sx sy) (@inertia_final_travel F (NumF L) vel decay) (@inertia_final_travel F (NumF L) vel' decay) /\
  alike (image sx sy) (@inertia_final_point F (NumF L) pos vel decay) (@inertia_final_point F (NumF L) pos' vel' decay).
Proof.
  intros L sx sy pos vel n decay pos' vel'.
  assert (W : forall v, vmir sx sy (V (vx v) (vy v)) (V (vx (mirror sx sy v)) (vy (mirror sx sy v)))) by (intros v; apply mirror_m).
  assert (T1 : alike (fun p q => v_valid p = true /\ v_valid q = true /\ vmir sx sy p q) (@inertia_n_step_travel F (NumF L) vel n decay) (@inertia_n_step_travel F (NumF L) vel' n decay)).
  { unfold inertia_n_step_travel. destruct (npowi decay n) as [p|]; [|reflexivity]. cbn [bind]. destruct (ndiv _ _) as [q|]; [|reflexivity]. cbn [bind alike]. split; [reflexivity|]. split; [reflexivity|]. apply mul_m; [apply W|apply mir_refl]. }
  assert (T2 : alike (fun p q => v_valid p = true /\ v_valid q = true /\ vmir sx sy p q) (@inertia_final_travel F (NumF L) vel decay) (@inertia_final_travel F (NumF L) vel' decay)) by (apply truediv_m; [apply W|apply mir_refl]).
  assert (E : forall r s, alike (fun p q => v_valid p = true /\ v_valid q = true /\ vmir sx sy p q) r s -> alike (image sx sy) r s) by (intros [p|] [q|] H; cbn [alike] in *; try contradiction; [destruct H as (V1 & V2 & H); split; [congruence|auto]|exact H]).
  split; [now apply E|]. split; [|split; [now apply E|]].
  - unfold inertia_n_step_point. eapply mir_bind; [exact T1|]. intros p q (_ & _ & H). cbn [alike]. split; [reflexivity|]. intros _. apply add_m; [apply W|exact H].
  - unfold inertia_final_point. eapply mir_bind; [exact T2|]. intros p q (_ & _ & H). cbn [alike]. split; [reflexivity|]. intros _. apply add_m; [apply W|exact H].
Qed.
(** ... and with its axes exchanged. *)
Theorem C203_coast_swap_F : forall (L : libm) (pos vel : vec F) (n : Z) (decay : F),
  alike swapped (@inertia_n_step_travel F (NumF L) vel n decay) (@inertia_n_step_travel F (NumF L) (swap vel) n decay) /\
  alike swapped (@inertia_n_step_point F (NumF L) pos vel n decay) (@inertia_n_step_point F (NumF L) (swap pos) (swap vel) n decay) /\
  alike swapped (@inertia_final_travel F (NumF L) vel decay) (@inertia_final_travel F (NumF L) (swap vel) decay) /\
  alike swapped (@inertia_final_point F (NumF L) pos vel decay) (@inertia_final_point F (NumF L) (swap pos) (swap vel) decay).
Proof.
  intros L pos vel n decay.
  assert (W : forall v, vsw (V (vx v) (vy v)) (V (vx (swap v)) (vy (swap v)))) by (intros v; apply swap_m).
  assert (T1 : alike (fun p q => v_valid p = true /\ v_valid q = true /\ vsw p q) (@inertia_n_step_travel F (NumF L) vel n decay) (@inertia_n_step_travel F (NumF L) (swap vel) n decay)).
  { unfold inertia_n_step_travel. destruct (npowi decay n) as [p|]; [|reflexivity]. cbn [bind]. destruct (ndiv _ _) as [q|]; [|reflexivity]. cbn [bind alike]. split; [reflexivity|]. split; [reflexivity|]. apply sw_mul; [apply W|apply mir_refl]. }
  split; [|split; [|split]].
  - destruct (inertia_n_step_travel vel n decay) as [p|], (inertia_n_step_travel (swap vel) n decay) as [q|]; try contradiction; cbn [alike] in *; [|exact T1]. destruct T1 as (V1 & V2 & H). split; [congruence|intros _; exact H].
  - unfold inertia_n_step_point. eapply mir_bind; [exact T1|]. intros p q (_ & _ & H). cbn [alike]. split; [reflexivity|]. intros _. apply sw_add; [apply W|exact H].
  - assert (H : alike (fun p q => v_valid p = true /\ v_valid q = true /\ vsw p q) (@inertia_final_travel F (NumF L) vel decay) (@inertia_final_travel F (NumF L) (swap vel) decay)) by (apply sw_truediv; [apply W|apply mir_refl]).
    destruct (inertia_final_travel vel decay) as [p|], (inertia_final_travel (swap vel) decay) as [q|]; try contradiction; cbn [alike] in *; [destruct H as (V1 & V2 & H); split; [congruence|intros _; exact H]|exact H].
  - unfold inertia_final_point, inertia_final_travel. eapply mir_bind; [apply sw_truediv; [apply W|apply mir_refl]|]. intros p q (_ & _ & H). cbn [alike]. split; [reflexivity|]. intros _. apply sw_add; [apply W|exact H].
Qed.
(** Rates do not depend on the side; a turn the other way is the opposite turn; the line in the mirrored direction is the mirrored line (its a and c change sign). *)
Theorem C203_sides_F : forall (L : libm) (d d' dist power ball player margin back side speed inertia : F), mir true d d' ->
  @dir_rate F (NumF L) d' back side = @dir_rate F (NumF L) d back side /\
  @kick_rate F (NumF L) dist d' power ball player margin = @kick_rate F (NumF L) dist d power ball player margin /\
  alike (mir true) (@effective_turn F (NumF L) d speed inertia) (@effective_turn F (NumF L) d' speed inertia).
Proof.
  intros L d d' dist power ball player margin back side speed inertia D. unfold dir_rate, kick_rate. cbn [nabs NumF]. rewrite (mir_abs _ _ _ D). split; [reflexivity|]. split; [reflexivity|].
  unfold effective_turn. apply (mir_div L true false); [exact D|apply mir_refl].
Qed.
Theorem C203_line_F : forall (L : libm) (p : vec F) (x y : ang_arg F), trig_mirror L -> turned_arg x y ->
  alike (fun l l' => mir true (l_a l) (l_a l') /\ mir false (l_b l) (l_b l') /\ mir true (l_c l) (l_c l')) (@Line2D_of_angle F (NumF L) p x) (@Line2D_of_angle F (NumF L) (mirror false true p) y).
Proof.
  intros L p x y TM X. unfold Line2D_of_angle. eapply mir_bind; [apply to_angle_m; exact X|]. intros a b A. destruct (C202_rotate_F L a b x y p (F_of_Z 0) TM A X) as (S & C & _). eapply mir_bind; [exact S|]. intros s s' SS. eapply mir_bind; [exact C|]. intros c c' CC.
  pose proof (mirror_m false true p) as [V1 V2]. cbn [alike l_a l_b l_c nneg nmul nsub NumF]. split; [now apply mir_opp|]. split; [exact CC|]. mir.
Qed.
Lemma round_away_opp x n : round_away x n -> round_away (- x) (- n).
Proof.
  intros [H1 H2]. unfold round_away. rewrite opp_IZR. replace (- IZR n - - x) with (- (IZR n - x)) by ring. rewrite !Rabs_Ropp. split.
  - replace (- x - - IZR n) with (- (x - IZR n)) by ring. try rewrite Rabs_Ropp. exact H1.
  - replace (- x - - IZR n) with (- (x - IZR n)) by ring. try rewrite Rabs_Ropp. exact H2.
Qed.
Lemma r_int_m L x y : mir true x y -> (is_finite x = true -> Rabs (B2R x) <= 9007199254740991) ->
  alike (fun n m => m = (- n)%Z /\ (Z.abs n < 2 ^ 53)%Z) (@r_int F (NumF L) x) (@r_int F (NumF L) y).
Proof.
  intros M B. destruct (is_finite x) eqn:FX.
  - specialize (B eq_refl). destruct (mir_fin _ _ _ M) as [FY EY]. cbn iota in EY. destruct (C93_r_int_F L x FX B) as (n & E1 & R1). destruct (C93_r_int_F L y ltac:(congruence) ltac:(rewrite EY, Rabs_Ropp; exact B)) as (m & E2 & R2).
    rewrite E1, E2. cbn [alike]. rewrite EY in R2. split; [exact (round_away_unique _ _ _ R2 (round_away_opp _ _ R1))|].
    destruct R1 as [H _]. apply lt_IZR. rewrite abs_IZR. change (2 ^ 53)%Z with 9007199254740992%Z. apply Rabs_le_inv in B. apply Rabs_le_inv in H. apply Rabs_def1; lra.
  - destruct M as [M|[Z1 Z2]]; [|exfalso; destruct Z1 as [s ->]; discriminate FX]. subst y. destruct x; try discriminate FX; reflexivity.
Qed.

(** Quantised values of opposite readings are opposite, and the two ends of the interval change places, as long as the number of steps is below 2^53. *)
Theorem C203_quantize_F : forall (L : libm) (v v' q : F), mir true v v' ->
  (forall w : F, @ndiv F (NumF L) v q = Ok w -> is_finite w = true -> Rabs (B2R w) <= 9007199254740991) ->
  alike (mir true) (@quantize F (NumF L) v q) (@quantize F (NumF L) v' q) /\
  alike (mir true) (@unquantize_min F (NumF L) v q) (@unquantize_max F (NumF L) v' q) /\
  alike (mir true) (@unquantize_max F (NumF L) v q) (@unquantize_min F (NumF L) v' q).
Proof.
  intros L v v' q M B. pose proof (mir_div L true false v v' q q M (mir_refl q)) as D. cbn [xorb] in D. unfold quantize, unquantize_min, unquantize_max.
  destruct (ndiv v q) as [w|e], (ndiv v' q) as [w'|e']; cbn [alike] in D; try contradiction; cbn [bind]; [|auto].
  pose proof (r_int_m L w w' D (B w eq_refl)) as I. destruct (r_int w) as [n|], (r_int w') as [m|]; cbn [alike] in I; try contradiction; cbn [bind]; [|auto].
  destruct I as [E N]. assert (C : mir true (F_of_Z n) (F_of_Z m)) by (apply mir_const; [exact N|subst m; now rewrite Z.abs_opp|exact E]).
  cbn [alike nmul nadd nsub nofZ NumF]. split; [|split]; apply (mir_mul true false); try apply mir_refl; [exact C| |]; rewrite Bminus_plus; apply mir_add; try exact C; [left; cbn [flip]; symmetry; apply Bopp_involutive|left; reflexivity].
Qed.
Example C203_nonvacuous : mir true (F_of_Z 30) (F_of_Z (-30)) /\ turned_arg (AN (F_of_Z 500)) (AN (F_of_Z (-500))) /\ trig_mirror libm_turn /\
  (exists p, @inertia_final_point F (NumF libm_turn) (V (F_of_Z 1) (F_of_Z 2)) (V (F_of_Z 3) (F_of_Z 4)) (F_of_Z 0) = Ok p /\ @neqb F (NumF libm_turn) (vx p) (F_of_Z 4) = true /\ @neqb F (NumF libm_turn) (vy p) (F_of_Z 6) = true) /\
  (exists t, @effective_turn F (NumF libm_turn) (F_of_Z 30) (F_of_Z 1) (F_of_Z 5) = Ok t /\ @neqb F (NumF libm_turn) t (F_of_Z 5) = true).
Proof.
  destruct C202_nonvacuous as (T & _ & _ & A & _). split; [|split; [exact A|split; [exact T|split]]].
  - now apply (mir_const true).
  - eexists. split; [reflexivity|]. split; vm_compute; reflexivity.
  - eexists. split; [reflexivity|]. vm_compute. reflexivity.
Qed.
Example C203_quantize_nonvacuous : mir true (F_of_Z 30) (F_of_Z (-30)) /\
  (forall w : F, @ndiv F (NumF libm_turn) (F_of_Z 30) (F_of_Z 4) = Ok w -> is_finite w = true -> Rabs (B2R w) <= 9007199254740991) /\
  (match @quantize F (NumF libm_turn) (F_of_Z 30) (F_of_Z 4) with Ok t => Beqb t (F_of_Z 32) | Raise _ => false end = true).
Proof.
  split; [now apply (mir_const true)|]. split.
  - assert (H : @ndiv F (NumF libm_turn) (F_of_Z 30) (F_of_Z 4) = Ok (Bdiv mode_NE (F_of_Z 30) (F_of_Z 4))) by reflexivity.
    assert (K : Bleb (Babs (Bdiv mode_NE (F_of_Z 30) (F_of_Z 4))) (F_of_Z 8) = true) by (vm_compute; reflexivity).
    revert H K. generalize (Bdiv mode_NE (F_of_Z 30) (F_of_Z 4)). generalize (@ndiv F (NumF libm_turn) (F_of_Z 30) (F_of_Z 4)). intros r z H K w E FW. rewrite H in E. injection E as <-.
    destruct (F_of_Z_exact 8 eq_refl) as [E8 F8]. rewrite Bleb_correct in K; [|now rewrite is_finite_Babs|exact F8]. rewrite B2R_Babs, E8 in K. destruct (Rle_bool_spec (Rabs (B2R z)) 8) as [Q|Q]; [|discriminate]. lra.
  - vm_compute. reflexivity.
Qed.
