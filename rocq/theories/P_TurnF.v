(** * P_TurnF: directions in a mirror, in doubles (C202) *)
From Coq Require Import ZArith List Bool String Reals Lra Lia.
From Flocq Require Import Core BinarySingleNaN.
From Verif Require Import Base Types NumR NumF R_Tac Spec Abs M_Angle M_Vector M_Sector L_Angle L_Float P_Float P_VecF P_AngleF P_TrigF P_PowF P_UnitF2 P_MirrorF P_SwapF.
Import ListNotations.
Local Open Scope R_scope.

(** ** Specification *)
(** The opposite number of degrees, up to the sign of zero: the direction in a mirror along the x axis. *)
Definition turned (a b : angle F) : Prop := mir true (a_degree a) (a_degree b).
(** A method's argument, an angle or a number, turned the other way. *)
Definition turned_arg (x y : ang_arg F) : Prop := match x, y with AA a, AA b => turned a b | AN u, AN v => mir true u v | _, _ => False end.
(** sin(-x) = -sin(x) and cos(-x) = cos(x), up to the sign of zeros. *)
Definition trig_mirror (L : libm) : Prop := forall x y : F, mir true x y -> mir true (lm_sin L x) (lm_sin L y) /\ mir false (lm_cos L x) (lm_cos L y).

(** atan2(-y, x) = -atan2(y, x) for y other than zero, whatever the sign of a zero x. *)
Definition atan2_mirror (L : libm) : Prop := forall y y' x x' : F, F_is_zero y = false -> mir true y y' -> mir false x x' -> mir true (lm_atan2 L y x) (lm_atan2 L y' x').

Lemma mir_of_R (b : bool) (x y : F) : is_finite x = true -> is_finite y = true -> B2R y = (if b then - B2R x else B2R x) -> mir b x y.
Proof.
  intros FX FY E. destruct (zero_dec x) as [Z|Z].
  - right. split; [exact Z|]. destruct Z as [s ->]. destruct (zero_dec y) as [Z|Z]; [exact Z|]. exfalso. apply (B2R_zero y FY Z). rewrite E. destruct b; cbn; lra.
  - left. pose proof (B2R_zero x FX Z) as N. apply B2R_inj.
    + apply is_finite_strict_B2R. rewrite E. destruct b; lra.
    + apply is_finite_strict_B2R. destruct b; cbn [flip]; rewrite ?B2R_Bopp; lra.
    + destruct b; cbn [flip]; rewrite ?B2R_Bopp; exact E.
Qed.
Lemma mir_sym b x y : mir b x y -> mir b y x.
Proof. intros [->|[A B]]; [left; rewrite flip_flip; now destruct b|right; tauto]. Qed.
Lemma mir_const (b : bool) n m : (Z.abs n < 2 ^ 53)%Z -> (Z.abs m < 2 ^ 53)%Z -> m = (if b then - n else n)%Z -> mir b (F_of_Z n) (F_of_Z m).
Proof.
  intros N M E. destruct (F_of_Z_exact n N) as [A1 A2]. destruct (F_of_Z_exact m M) as [B1 B2]. apply mir_of_R; try assumption. rewrite A1, B1, E. destruct b; [now rewrite opp_IZR|reflexivity].
Qed.
Section Turn.
  Variable L : libm.
  Lemma fold_m x y : is_finite x = true -> -360 <= B2R x <= 360 -> mir true x y -> mir true (fold_F x) (fold_F y).
  Proof.
    intros FX RX M. destruct (mir_fin _ _ _ M) as [FY RY]. rewrite FX in FY.
    assert (S : mir true (Bplus mode_NE x (F_of_Z 360)) (Bminus mode_NE y (F_of_Z 360))) by (rewrite Bminus_plus; apply mir_add; [exact M|left; reflexivity]).
    assert (T : mir true (Bminus mode_NE x (F_of_Z 360)) (Bplus mode_NE y (F_of_Z 360))) by (rewrite Bminus_plus; apply mir_add; [exact M|left; cbn [flip]; now rewrite Bopp_involutive]).
    destruct (F_of_Z_exact (-180) eq_refl) as [A1 A2]. destruct (F_of_Z_exact 180 eq_refl) as [B1 B2]. unfold fold_F. rewrite !(ltb_F x), !(ltb_F y) by easy. rewrite A1, RY.
    destruct (Rlt_bool_spec (B2R x) (-180)) as [C|C].
    - rewrite (Rlt_bool_false (- B2R x)) by lra. destruct (up_exact x FX ltac:(lra)) as [U1 U2]. rewrite !ltb_F by easy. rewrite B1, U1, RY, Rlt_bool_false, Rlt_bool_true by lra. exact S.
    - destruct (Rlt_bool_spec (- B2R x) (-180)) as [D|D].
      + destruct (up_exact y FY ltac:(lra)) as [U1 U2]. rewrite !ltb_F by easy. rewrite B1, U1, RY, Rlt_bool_true, Rlt_bool_false by lra. exact T.
      + rewrite !ltb_F by easy. rewrite B1, RY, !Rlt_bool_false by lra. exact M.
  Qed.
  Lemma fmod_m x y : is_finite x = true -> mir true x y -> mir true (F_fmod_fin x (F_of_Z 360)) (F_fmod_fin y (F_of_Z 360)) /\ is_finite (F_fmod_fin x (F_of_Z 360)) = true /\ -360 <= B2R (F_fmod_fin x (F_of_Z 360)) <= 360.
  Proof.
    intros FX M. destruct (mir_fin _ _ _ M) as [FY RY]. rewrite FX in FY. destruct (F_of_Z_exact 360 eq_refl) as [B1 B2].
    destruct (F_fmod_fin_exact x (F_of_Z 360) FX B2 ltac:(rewrite B1; lra)) as [E1 E2]. destruct (F_fmod_fin_exact y (F_of_Z 360) FY B2 ltac:(rewrite B1; lra)) as [G1 G2]. rewrite B1 in E1, G1.
    split; [|split; [exact E2|]].
    - apply mir_of_R; try assumption. rewrite E1, G1, RY. replace (- B2R x / 360) with (- (B2R x / 360)) by lra. rewrite Ztrunc_opp, opp_IZR. lra.
    - rewrite E1. destruct (Rlt_dec (B2R x) 0) as [N|N]; [pose proof (trunc_frac_neg (B2R x / 360))|pose proof (trunc_frac (B2R x / 360))]; lra.
  Qed.
  Lemma normal_m x y : mir true x y -> alike (mir true) (@AngleDeg_normal F (NumF L) x) (@AngleDeg_normal F (NumF L) y).
  Proof.
    intros M. destruct (is_finite x) eqn:FX.
    - destruct (mir_fin _ _ _ M) as [FY RY]. rewrite FX in FY. destruct (F_of_Z_exact (-360) eq_refl) as [A1 A2]. destruct (F_of_Z_exact 360 eq_refl) as [B1 B2].
      assert (N : forall z : F, is_finite z = true -> @AngleDeg_normal F (NumF L) z = Ok (fold_F (if Rlt_bool (B2R z) (-360) || Rlt_bool 360 (B2R z) then F_fmod_fin z (F_of_Z 360) else z))).
      { intros z Z. unfold AngleDeg_normal. cbn [nltb nfmod nadd nsub nlit NumF F_lit]. change (@nlit F (NumF L) (-360) 1) with (F_of_Z (-360)). rewrite (ltb_F z (F_of_Z (-360))), (ltb_F (F_of_Z 360) z) by easy. rewrite A1, B1.
        assert (EF : F_fmod z (F_of_Z 360) = Ok (F_fmod_fin z (F_of_Z 360))) by (destruct z; easy). rewrite EF. destruct (_ || _); reflexivity. }
      rewrite (N x FX), (N y FY). cbn [alike]. rewrite RY. destruct (fmod_m x y FX M) as (M1 & M2 & M3).
      destruct (Rlt_bool_spec (B2R x) (-360)); destruct (Rlt_bool_spec 360 (B2R x)); destruct (Rlt_bool_spec (- B2R x) (-360)); destruct (Rlt_bool_spec 360 (- B2R x)); cbn [orb]; try lra; first [now apply fold_m|apply fold_m; try assumption; lra].
    - destruct M as [->|[[s ->] _]]; [|discriminate]. destruct x as [s|s| |s m e K]; try discriminate; cbn [flip Bopp]; [rewrite !normal_F_inf; reflexivity|]. rewrite normal_F_nan. now left.
  Qed.
  Lemma of_num_m x y : mir true x y -> alike turned (@AngleDeg_of_num F (NumF L) x) (@AngleDeg_of_num F (NumF L) y).
  Proof. intros M. unfold AngleDeg_of_num. eapply mir_bind; [apply normal_m; exact M|]. intros d e D. exact D. Qed.
  Lemma degree_m a b : turned a b -> alike (mir true) (@AngleDeg_degree F (NumF L) a) (@AngleDeg_degree F (NumF L) b).
  Proof. intros M. unfold AngleDeg_degree. eapply mir_bind; [apply of_num_m; exact M|]. intros d e D. exact D. Qed.
  Lemma ang_num_m x y : turned_arg x y -> alike (mir true) (@ang_num F (NumF L) x) (@ang_num F (NumF L) y).
  Proof. destruct x, y; cbn [turned_arg ang_num]; try contradiction; intros M; [now apply degree_m|exact M]. Qed.
  Lemma to_angle_m x y : turned_arg x y -> alike turned (@to_angle F (NumF L) x) (@to_angle F (NumF L) y).
  Proof. destruct x, y; cbn [turned_arg to_angle]; try contradiction; intros M; [exact M|now apply of_num_m]. Qed.
  (** reading the degree can only raise ValueError *)
  Lemma degree_raise (a : angle F) : match @AngleDeg_degree F (NumF L) a with Ok _ => True | Raise e => e = ValueError end.
  Proof.
    unfold AngleDeg_degree, AngleDeg_of_num. destruct (a_degree a) as [s|s| |s m e K] eqn:E.
    - destruct (normal_F L (B754_zero s) eq_refl) as (d & -> & _). exact I.
    - now rewrite normal_F_inf.
    - now rewrite normal_F_nan.
    - destruct (normal_F L (B754_finite s m e K) eq_refl) as (d & -> & _). exact I.
  Qed.
  Lemma diff_m x y x' y' : mir true x x' -> mir true y y' -> mir false (Bminus mode_NE x y) (Bminus mode_NE y' x').
  Proof.
    intros X Y. apply (mir_eq (xorb true true)); [|reflexivity]. eapply mir_trans; [apply (sub_sw false); apply mir_refl|]. apply mir_sub; assumption.
  Qed.
  Lemma side_m (d d' z : F) : mir false d d' -> Bltb z d' = Bltb z d /\ Bleb z d' = Bleb z d /\ Bltb d' z = Bltb d z.
  Proof. intros D. destruct (mir_cmp _ _ _ _ _ (mir_refl z) D) as (A & B & _). destruct (mir_cmp _ _ _ _ _ D (mir_refl z)) as (C & _). auto. Qed.
  Lemma left_m a b x y : turned a b -> turned_arg x y -> @AngleDeg_is_right_of F (NumF L) b y = @AngleDeg_is_left_of F (NumF L) a x.
  Proof.
    intros A X. unfold AngleDeg_is_left_of, AngleDeg_is_right_of. pose proof (to_angle_m _ _ X) as T. destruct (to_angle x) as [u|], (to_angle y) as [v|]; try contradiction; cbn [bind alike] in *; [|congruence].
    pose proof (degree_m _ _ A) as DA. pose proof (degree_m _ _ T) as DU. pose proof (degree_raise a) as RA. pose proof (degree_raise u) as RU.
    destruct (AngleDeg_degree a) as [da|], (AngleDeg_degree b) as [db|]; try contradiction; destruct (AngleDeg_degree u) as [du|], (AngleDeg_degree v) as [dv|]; try contradiction; cbn [bind alike nsub nltb NumF] in *; try congruence.
    destruct (side_m _ _ (@nlit F (NumF L) 0 1) (diff_m _ _ _ _ DU DA)) as (-> & _). destruct (side_m _ _ (@nlit F (NumF L) 180 1) (diff_m _ _ _ _ DU DA)) as (_ & _ & ->). destruct (side_m _ _ (@nlit F (NumF L) (-180) 1) (diff_m _ _ _ _ DU DA)) as (_ & _ & ->). reflexivity.
  Qed.
  Lemma turned_good a b : turned a b -> good_or_nan (a_degree a) -> good_or_nan (a_degree b).
  Proof. intros T [N|[G1 G2]]; [left; destruct T as [->|[[s E] _]]; [now rewrite N|congruence]|right]. destruct (mir_fin _ _ _ T) as [F1 F2]. split; [congruence|rewrite F2; lra]. Qed.
  Lemma degree_good (a : angle F) : good_or_nan (a_degree a) -> @AngleDeg_degree F (NumF L) a = Ok (a_degree a).
  Proof. intros G. now apply degree_F_good. Qed.
  Lemma left_eq_m a b x y : turned a b -> turned x y -> good_or_nan (a_degree a) -> good_or_nan (a_degree x) ->
    @AngleDeg_is_right_equal_of F (NumF L) b (AA y) = @AngleDeg_is_left_equal_of F (NumF L) a (AA x) /\ @AngleDeg_is_left_equal_of F (NumF L) y (AA b) = @AngleDeg_is_left_equal_of F (NumF L) a (AA x).
  Proof.
    intros A X GA GX. pose proof (turned_good _ _ A GA) as GB. pose proof (turned_good _ _ X GX) as GY. unfold AngleDeg_is_left_equal_of, AngleDeg_is_right_equal_of. cbn [to_angle bind]. rewrite !degree_good by assumption. cbn [bind nsub nltb nleb NumF].
    destruct (side_m _ _ (@nlit F (NumF L) 0 1) (diff_m _ _ _ _ X A)) as (_ & -> & _). destruct (side_m _ _ (@nlit F (NumF L) 180 1) (diff_m _ _ _ _ X A)) as (_ & _ & ->). destruct (side_m _ _ (@nlit F (NumF L) (-180) 1) (diff_m _ _ _ _ X A)) as (_ & _ & ->). auto.
  Qed.
  Lemma left_eq_ok a x : good_or_nan (a_degree a) -> good_or_nan (a_degree x) -> exists t, @AngleDeg_is_left_equal_of F (NumF L) a (AA x) = Ok t.
  Proof. intros GA GX. unfold AngleDeg_is_left_equal_of. cbn [to_angle bind]. rewrite degree_good by assumption. cbn [bind]. eauto. Qed.
  Lemma trig_m x y (TM : trig_mirror L) : mir true x y -> alike (mir true) (@nsin F (NumF L) x) (@nsin F (NumF L) y) /\ alike (mir false) (@ncos F (NumF L) x) (@ncos F (NumF L) y).
  Proof.
    intros M. destruct (TM x y M) as [S C]. cbn [nsin ncos NumF]. unfold F_math1.
    assert (Q : forall b (u v : F), mir b u v -> is_nan v = is_nan u /\ F_is_inf v = F_is_inf u) by (intros b u v [->|[[s ->] [t ->]]]; [destruct b, u as [s|s| |s m e K]; cbn [flip Bopp]; auto|auto]).
    destruct (Q _ _ _ S) as [-> ->]. destruct (Q _ _ _ C) as [-> ->]. destruct (Q _ _ _ M) as [-> _]. destruct (mir_fin _ _ _ M) as [-> _].
    split; (destruct (_ && _); [reflexivity|]); (destruct (_ && _); [reflexivity|]); assumption.
  Qed.
End Turn.

(** ** C202 *)
(** Building angles and computing with them: opposite arguments give opposite results, and the same exception if any. *)
Theorem C202_angles_F : forall (L : libm) (a b : angle F) (x y : ang_arg F) (u v k : F), turned a b -> turned_arg x y -> mir true u v ->
  alike turned (@AngleDeg_of_num F (NumF L) u) (@AngleDeg_of_num F (NumF L) v) /\
  alike (mir true) (@AngleDeg_degree F (NumF L) a) (@AngleDeg_degree F (NumF L) b) /\
  alike (fun s t => t = s) (@AngleDeg_abs F (NumF L) a) (@AngleDeg_abs F (NumF L) b) /\
  alike turned (@AngleDeg_add F (NumF L) a x) (@AngleDeg_add F (NumF L) b y) /\
  alike turned (@AngleDeg_sub F (NumF L) a x) (@AngleDeg_sub F (NumF L) b y) /\
  alike turned (@AngleDeg_mul F (NumF L) a k) (@AngleDeg_mul F (NumF L) b k) /\
  alike turned (@AngleDeg_floordiv F (NumF L) a k) (@AngleDeg_floordiv F (NumF L) b k) /\
  alike turned (@AngleDeg_neg F (NumF L) a) (@AngleDeg_neg F (NumF L) b).
Proof.
  intros L a b x y u v k A X U. split; [now apply of_num_m|]. split; [now apply degree_m|]. split.
  { unfold AngleDeg_abs. eapply mir_bind; [now apply degree_m|]. intros s t S. cbn [alike nabs NumF]. exact (mir_abs _ _ _ S). }
  split. { unfold AngleDeg_add. eapply mir_bind; [apply ang_num_m; exact X|]. intros s t S. apply of_num_m. cbn [nadd NumF]. now apply mir_add. }
  split. { unfold AngleDeg_sub. destruct x, y; cbn [turned_arg] in X; try contradiction; apply of_num_m; cbn [nsub NumF]; now apply mir_sub. }
  split. { unfold AngleDeg_mul. apply of_num_m. cbn [nmul NumF]. apply (mir_mul true false); [exact A|apply mir_refl]. }
  split. { unfold AngleDeg_floordiv. eapply mir_bind; [apply (mir_div L true false); [exact A|apply mir_refl]|]. intros s t S. now apply of_num_m. }
  unfold AngleDeg_neg. apply of_num_m. cbn [nneg NumF]. now apply mir_opp.
Qed.
(** Left becomes right; an interval of directions becomes the interval with its ends exchanged. *)
Theorem C202_sides_F : forall (L : libm) (a b : angle F) (x y : ang_arg F) (l l' r r' : angle F), turned a b -> turned_arg x y -> turned l l' -> turned r r' ->
  @AngleDeg_is_right_of F (NumF L) b y = @AngleDeg_is_left_of F (NumF L) a x /\
  alike (fun s t => t = s) (@AngleDeg_eq F (NumF L) a x) (@AngleDeg_eq F (NumF L) b y) /\
  (good_or_nan (a_degree a) -> good_or_nan (a_degree l) -> good_or_nan (a_degree r) ->
   @AngleDeg_is_right_equal_of F (NumF L) b (AA l') = @AngleDeg_is_left_equal_of F (NumF L) a (AA l) /\
   @AngleDeg_is_within F (NumF L) b (AA r') (AA l') = @AngleDeg_is_within F (NumF L) a (AA l) (AA r)).
Proof.
  intros L a b x y l l' r r' A X LL RR. split; [now apply left_m|]. split.
  { unfold AngleDeg_eq. eapply mir_bind; [apply ang_num_m; exact X|]. intros s t S. cbn [alike nabs nsub nltb NumF]. now rewrite (mir_abs true _ _ (mir_sub _ _ _ _ _ A S)). }
  intros GA GL GR. split; [now apply left_eq_m|]. unfold AngleDeg_is_within. cbn [to_angle bind].
  rewrite (proj2 (left_eq_m L _ _ _ _ LL RR GL GR)), (proj2 (left_eq_m L _ _ _ _ A RR GA GR)), (proj2 (left_eq_m L _ _ _ _ LL A GL GA)).
  destruct (left_eq_ok L l r GL GR) as [t1 ->]. destruct (left_eq_ok L a r GA GR) as [t2 ->]. destruct (left_eq_ok L l a GL GA) as [t3 ->]. cbn [bind]. now destruct t1, t2, t3.
Qed.
(** Directions and points: a mirrored direction has the same cosine and the opposite sine; polar construction and rotation commute with the mirror (y changes sign). *)
Theorem C202_rotate_F : forall (L : libm) (a b : angle F) (x y : ang_arg F) (v : vec F) (k : F), trig_mirror L -> turned a b -> turned_arg x y ->
  alike (mir true) (@AngleDeg_sin F (NumF L) a) (@AngleDeg_sin F (NumF L) b) /\
  alike (mir false) (@AngleDeg_cos F (NumF L) a) (@AngleDeg_cos F (NumF L) b) /\
  alike (image false true) (@Vector2D_from_polar F (NumF L) k x) (@Vector2D_from_polar F (NumF L) k y) /\
  alike (image false true) (@Vector2D_rotate F (NumF L) v x) (@Vector2D_rotate F (NumF L) (mirror false true v) y).
Proof.
  intros L a b x y v k TM A X.
  assert (S : forall s t, turned s t -> alike (mir true) (@AngleDeg_sin F (NumF L) s) (@AngleDeg_sin F (NumF L) t) /\ alike (mir false) (@AngleDeg_cos F (NumF L) s) (@AngleDeg_cos F (NumF L) t)).
  { intros s t T. unfold AngleDeg_sin, AngleDeg_cos. apply trig_m; [exact TM|]. cbn [nmul NumF]. apply (mir_mul true false); [exact T|apply mir_refl]. }
  split; [now apply S|]. split; [now apply S|]. split.
  - unfold Vector2D_from_polar. eapply mir_bind; [apply to_angle_m; exact X|]. intros s t T. eapply mir_bind; [apply S; exact T|]. intros c c' C. eapply mir_bind; [apply S; exact T|]. intros n n' N. cbn [alike]. split; [reflexivity|]. intros _. cbn [V vx vy nmul NumF]. split; [apply (mir_mul false false)|apply (mir_mul false true)]; try assumption; apply mir_refl.
  - unfold Vector2D_rotate. eapply mir_bind; [apply ang_num_m; exact X|]. intros d e D. assert (DM : mir true (@nmul F (NumF L) d (@DEG2RAD F (NumF L))) (@nmul F (NumF L) e (@DEG2RAD F (NumF L)))) by (cbn [nmul NumF]; apply (mir_mul true false); [exact D|apply mir_refl]).
    destruct (trig_m L _ _ TM DM) as [SS CC]. eapply mir_bind; [exact CC|]. intros c c' C. eapply mir_bind; [exact SS|]. intros n n' N. cbn [alike]. split; [reflexivity|]. intros _. pose proof (mirror_m false true v) as [V1 V2]. unfold Vector2D_assign. cbn [vx vy nmul nadd nsub NumF]. split; mir.
Qed.
(** The direction of a mirrored vector, and a mirrored sector, which starts where the other ends: the same points are in it (points level with the centre apart). *)
Theorem C202_sector_F : forall (L : libm) (v c p : vec F) (lo hi : F) (a b a' b' : angle F), atan2_mirror L ->
  (F_is_zero (vy v) = false -> alike turned (@Vector2D_th F (NumF L) v) (@Vector2D_th F (NumF L) (mirror false true v))) /\
  (turned a a' -> turned b b' -> good_or_nan (a_degree a) -> good_or_nan (a_degree b) -> F_is_zero (Bminus mode_NE (vy p) (vy c)) = false ->
   @Sector2D_contains F (NumF L) (mkSector (mirror false true c) lo hi b' a') (mirror false true p) = @Sector2D_contains F (NumF L) (mkSector c lo hi a b) p).
Proof.
  intros L v c p lo hi a b a' b' AM.
  assert (TH : forall u w : vec F, F_is_zero (vy u) = false -> vmir false true u w -> alike turned (@Vector2D_th F (NumF L) u) (@Vector2D_th F (NumF L) w)).
  { intros u w Z [X Y]. unfold Vector2D_th. apply of_num_m. unfold atan2_deg. cbn [nabs nltb NumF]. rewrite (mir_abs _ _ _ X), (mir_abs _ _ _ Y). destruct (_ && _); [right; split; exists false; reflexivity|].
    unfold rad2deg. cbn [nmul natan2 NumF]. apply (mir_mul true false); [now apply AM|apply mir_refl]. }
  split; [intros Z; apply TH; [exact Z|apply mirror_m]|]. intros A B GA GB Z. unfold Sector2D_contains. cbn [sec_center sec_min_r sec_max_r sec_start sec_end].
  pose proof (sub_m L false true _ _ _ _ (mirror_m false true p) (mirror_m false true c)) as S. rewrite (r2_m L false true _ _ S). destruct (_ && _); [|reflexivity].
  pose proof (TH (@Vector2D_sub F (NumF L) p c) _ Z S) as T. destruct (Vector2D_th (Vector2D_sub p c)) as [t|e] eqn:ET, (Vector2D_th (Vector2D_sub (mirror false true p) (mirror false true c))) as [t'|e']; try contradiction; cbn [bind alike] in *; [|congruence].
  assert (GT : good_or_nan (a_degree t)).
  { unfold Vector2D_th, AngleDeg_of_num in ET. destruct (AngleDeg_normal _) as [d|] eqn:EN; [|discriminate]. cbn [bind] in ET. injection ET as <-. exact (proj1 (normal_F_any L _ _ EN)). }
  destruct (C202_sides_F L t t' (AA a) (AA a') a a' b b' T A A B) as (_ & _ & H). now apply H.
Qed.
(** Refuted for reverse at 0: both 0 and -0 turn to -180. *)
Theorem C202_reverse_refuted_F : forall L : libm, exists a b : angle F, turned a b /\ ~ turned (@AngleDeg_reverse F (NumF L) a) (@AngleDeg_reverse F (NumF L) b).
Proof.
  intros L. exists (mkAngle (F_of_Z 0)), (mkAngle (F_of_Z 0)). split; [right; split; exists false; reflexivity|]. intros [E|[[s E] _]].
  - apply (f_equal B2SF) in E. vm_compute in E. discriminate.
  - apply (f_equal B2SF) in E. vm_compute in E. discriminate.
Qed.
(** A math library with correctly rounded sine, cosine and atan2 (of a finite y). *)
Definition libm_turn : libm := {| lm_sin := lm_sin libm_round; lm_cos := lm_cos libm_round; lm_tan := lm_tan libm_round; lm_asin := lm_asin libm_round; lm_acos := lm_acos libm_round; lm_atan := lm_atan libm_round;
  lm_atan2 := fun y x => if is_finite y then F_of_R (Ratan2 (B2R y) (B2R x)) else y; lm_exp := lm_exp libm_round; lm_log := lm_log libm_round; lm_pow := lm_pow libm_round |}.
Example C202_nonvacuous : trig_mirror libm_turn /\ atan2_mirror libm_turn /\ turned (mkAngle (F_of_Z 30)) (mkAngle (F_of_Z (-30))) /\ turned_arg (AN (F_of_Z 500)) (AN (F_of_Z (-500))) /\ good_degree (F_of_Z 30) /\
  @AngleDeg_is_left_of F (NumF libm_turn) (mkAngle (F_of_Z 30)) (AN (F_of_Z 40)) = Ok true.
Proof.
  split.
  { intros x y M. cbn [lm_sin lm_cos libm_turn libm_round]. destruct (mir_fin _ _ _ M) as [_ E]. rewrite E, sin_neg, cos_neg. split; [|apply mir_refl].
    assert (B : forall t, Rabs (sin t) <= bpow radix2 1000 /\ Rabs (- sin t) <= bpow radix2 1000) by (intros t; rewrite Rabs_Ropp; pose proof (SIN_bound t); assert (Rabs (sin t) <= bpow radix2 0) by (apply Rabs_le; exact H); assert (bpow radix2 0 <= bpow radix2 1000) by (apply bpow_le; lia); lra).
    destruct (B (B2R x)) as [B1 B2]. destruct (F_of_R_ok _ B1) as [F1 R1]. destruct (F_of_R_ok _ B2) as [F2 R2]. apply mir_of_R; try assumption. rewrite R1, R2. apply round_NE_opp. }
  split.
  { intros y y' x x' Z Y X. cbn [lm_atan2 libm_turn]. destruct (mir_fin _ _ _ Y) as [FY EY]. destruct (mir_fin _ _ _ X) as [_ EX]. cbn iota in EY, EX. rewrite FY, EX, EY.
    destruct (is_finite y) eqn:FF; [|exact Y]. pose proof (B2R_zero y FF Z) as Y0.
    - assert (O : Ratan2 (- B2R y) (B2R x) = - Ratan2 (B2R y) (B2R x)).
      { unfold Ratan2. replace (- B2R y / B2R x) with (- (B2R y / B2R x)) by (unfold Rdiv; ring). rewrite atan_opp.
        destruct (Rlt_bool_spec 0 (B2R x)); [reflexivity|]. destruct (Rlt_bool_spec (B2R x) 0); [destruct (Rle_bool_spec 0 (B2R y)), (Rle_bool_spec 0 (- B2R y)); lra|destruct (Rlt_bool_spec 0 (B2R y)), (Rlt_bool_spec 0 (- B2R y)), (Rlt_bool_spec (B2R y) 0), (Rlt_bool_spec (- B2R y) 0); lra]. }
      rewrite O. pose proof (L_Trig.Ratan2_range (B2R y) (B2R x)) as RG. pose proof pi_bounds as PB. assert (A : Rabs (Ratan2 (B2R y) (B2R x)) <= bpow radix2 1000) by (apply Rle_trans with (bpow radix2 2); [change (bpow radix2 2) with 4; apply Rabs_le; lra|apply bpow_le; lia]).
      destruct (F_of_R_ok _ A) as [F1 R1]. destruct (F_of_R_ok (- Ratan2 (B2R y) (B2R x)) ltac:(now rewrite Rabs_Ropp)) as [F2 R2]. apply mir_of_R; try assumption. rewrite R1, R2. apply round_NE_opp. }
  split; [now apply (mir_const true)|]. split; [now apply (mir_const true)|]. split; [|vm_compute; reflexivity]. destruct (F_of_Z_exact 30 eq_refl) as [E1 E2]. split; [exact E2|rewrite E1; lra].
Qed.
