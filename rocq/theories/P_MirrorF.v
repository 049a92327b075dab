(** * P_MirrorF: mirroring the plane, in doubles (C200) *)
From Coq Require Import ZArith List Bool String Reals Lra Lia.
From Flocq Require Import Core BinarySingleNaN.
From Verif Require Import Base Types NumR NumF R_Tac Spec Abs M_Angle M_Vector M_Line M_Ray M_Triangle M_Segment M_Circle M_Sector M_Rect M_Polygon M_PolyF L_Float P_Float P_VecF P_RectF P_PowF P_UnitF P_UnitF2.
Import ListNotations.
Local Open Scope R_scope.

(** ** Specification *)
Definition flip (b : bool) (x : F) : F := if b then Bopp x else x.
(** The mirror image: x changes sign if [sx], y if [sy]. *)
Definition mirror (sx sy : bool) (v : vec F) : vec F := mkVec (flip sx (vx v)) (flip sy (vy v)) (v_valid v).
(** y is x, with its sign changed if [b]; but any zero stands for any zero. *)
Definition mir (b : bool) (x y : F) : Prop := y = flip b x \/ (is_zero x /\ is_zero y).
(** q is the mirror image of p, up to the signs of zeros; both are valid or both are not. *)
Definition image (sx sy : bool) (p q : vec F) : Prop := v_valid q = v_valid p /\ (v_valid p = true -> mir sx (vx p) (vx q) /\ mir sy (vy p) (vy q)).

(** ** The operations *)
Lemma zero_dec (x : F) : is_zero x \/ F_is_zero x = false.
Proof. destruct x as [s|s| |s m e H]; [left; now exists s|right; try destruct s; reflexivity..]. Qed.
Lemma flip_zero b x : is_zero (flip b x) <-> is_zero x.
Proof. destruct b; cbn [flip]; [|reflexivity]. split; intros [s E]; [destruct x; try discriminate; eexists; reflexivity|subst; eexists; reflexivity]. Qed.
Lemma flip_flip b c x : flip b (flip c x) = flip (xorb b c) x.
Proof. destruct b, c; cbn [flip xorb]; try reflexivity. apply Bopp_involutive. Qed.
Lemma mir_flip b x : mir b x (flip b x).
Proof. now left. Qed.
Lemma mir_refl x : mir false x x.
Proof. now left. Qed.
Lemma mir_eq b c x y : mir b x y -> b = c -> mir c x y.
Proof. now intros H <-. Qed.
Lemma mir_zero b x y : mir b x y -> is_zero y <-> is_zero x.
Proof. intros [->|[A B]]; [apply flip_zero|tauto]. Qed.
Lemma mir_opp b x y : mir b x y -> mir b (Bopp x) (Bopp y).
Proof. intros [->|[A B]]; [left; now destruct b|right]. split; now apply (flip_zero true). Qed.
Lemma mir_opp_l b x y : mir b x y -> mir (negb b) (Bopp x) y.
Proof. intros [->|[A B]]; [left; destruct b; cbn [flip negb]; [reflexivity|now rewrite Bopp_involutive]|right]. split; [now apply (flip_zero true)|exact B]. Qed.
Lemma mir_abs b x y : mir b x y -> Babs y = Babs x.
Proof. intros [->|[[s ->] [t ->]]]; [|reflexivity]. destruct b; cbn [flip]; [|reflexivity]. now destruct x. Qed.
Lemma mir_fin b x y : mir b x y -> is_finite y = is_finite x /\ B2R y = (if b then - B2R x else B2R x).
Proof.
  intros [->|[[s ->] [t ->]]]; [|split; [reflexivity|destruct b; cbn; lra]]. destruct b; cbn [flip]; [|easy]. now rewrite is_finite_Bopp, B2R_Bopp.
Qed.
Lemma plus_zero_l (x y : F) : is_zero x -> F_is_zero y = false -> Bplus mode_NE x y = y.
Proof. intros [s ->] H. destruct y as [t|t| |t m e K]; try (destruct t; discriminate); try reflexivity. Qed.
Lemma zero_is (x : F) : F_is_zero x = true <-> is_zero x.
Proof. split; [destruct x as [s|s| |s m e H]; try (destruct s; discriminate); try discriminate; now exists s|intros [s ->]; now destruct s]. Qed.
Lemma mir_iszero b x y : mir b x y -> F_is_zero y = F_is_zero x.
Proof. intros M. apply mir_zero in M. destruct (F_is_zero y) eqn:A, (F_is_zero x) eqn:B; try reflexivity; exfalso; [apply zero_is, M, zero_is in A|apply zero_is, M, zero_is in B]; congruence. Qed.
Lemma plus_zeros (x y : F) : is_zero x -> is_zero y -> is_zero (Bplus mode_NE x y).
Proof. intros [s ->] [t ->]. destruct s, t; cbn; eexists; reflexivity. Qed.
Lemma Bminus_plus (x y : F) : Bminus mode_NE x y = Bplus mode_NE x (Bopp y).
Proof. destruct x as [s|s| |s m e H], y as [t|t| |t n f K]; try reflexivity. Qed.
Lemma Bplus_opp (x y : F) : mir true (Bplus mode_NE x y) (Bplus mode_NE (Bopp x) (Bopp y)).
Proof.
  assert (E : Bplus mode_NE x y = Bminus mode_NE x (Bopp y)) by (rewrite Bminus_plus; now rewrite Bopp_involutive).
  assert (E' : Bplus mode_NE (Bopp x) (Bopp y) = Bminus mode_NE (Bopp y) x) by (rewrite Bminus_plus; apply Bplus_comm).
  rewrite E, E'. destruct (Bminus_swap x (Bopp y)) as [K|[A B]]; [now left|now right].
Qed.
Lemma mir_add b x x' y y' : mir b x x' -> mir b y y' -> mir b (Bplus mode_NE x y) (Bplus mode_NE x' y').
Proof.
  intros X Y. pose proof (mir_zero _ _ _ X) as ZX. pose proof (mir_zero _ _ _ Y) as ZY. pose proof (mir_iszero _ _ _ X) as IX. pose proof (mir_iszero _ _ _ Y) as IY.
  destruct (zero_dec x) as [A|A].
  - destruct (zero_dec y) as [B|B]; [right; split; apply plus_zeros; tauto|]. rewrite !plus_zero_l; [exact Y|tauto|congruence|exact A|exact B].
  - destruct (zero_dec y) as [B|B].
    + rewrite (Bplus_comm x), (Bplus_comm x'). rewrite !plus_zero_l; [exact X|tauto|congruence|exact B|exact A].
    + destruct X as [->|[X _]]; [|apply zero_is in X; congruence]. destruct Y as [->|[Y _]]; [|apply zero_is in Y; congruence].
      destruct b; cbn [flip]; [apply Bplus_opp|apply mir_refl].
Qed.
Lemma mir_sub b x x' y y' : mir b x x' -> mir b y y' -> mir b (Bminus mode_NE x y) (Bminus mode_NE x' y').
Proof. intros X Y. rewrite !Bminus_plus. apply mir_add; [exact X|now apply mir_opp]. Qed.
Lemma round_flip s m e l : binary_round_aux 53 1024 mode_NE (negb s) m e l = SpecFloat.SFopp (binary_round_aux 53 1024 mode_NE s m e l).
Proof.
  unfold binary_round_aux. cbn [choice_mode]. destruct (SpecFloat.shr_fexp 53 1024 m e l) as [r f]. destruct (SpecFloat.shr_fexp 53 1024 _ f _) as [r' f']. destruct (SpecFloat.shr_m r'); try reflexivity.
  unfold binary_fit_aux. destruct (Z.leb _ _); reflexivity.
Qed.
Lemma B2SF_opp (x : F) : B2SF (Bopp x) = SpecFloat.SFopp (B2SF x).
Proof. now destruct x. Qed.
Lemma Bmult_opp_l (x y : F) : Bmult mode_NE (Bopp x) y = Bopp (Bmult mode_NE x y).
Proof.
  apply B2SF_inj. rewrite B2SF_opp. destruct x as [sx|sx| |sx mx ex Hx], y as [sy|sy| |sy my ey Hy]; unfold Bmult, Bopp; cbn [B2SF SpecFloat.SFopp]; try reflexivity; try (destruct sx, sy; reflexivity).
  rewrite !B2SF_SF2B. rewrite <- round_flip. f_equal. now destruct sx, sy.
Qed.
Lemma Bdiv_opp_l (x y : F) : Bdiv mode_NE (Bopp x) y = Bopp (Bdiv mode_NE x y).
Proof.
  apply B2SF_inj. rewrite B2SF_opp. destruct x as [sx|sx| |sx mx ex Hx], y as [sy|sy| |sy my ey Hy]; unfold Bdiv, Bopp; cbn [B2SF SpecFloat.SFopp]; try reflexivity; try (destruct sx, sy; reflexivity).
  rewrite !B2SF_SF2B. destruct (SpecFloat.SFdiv_core_binary _ _ _ _ _ _) as [[q e] l]. rewrite <- round_flip. f_equal. now destruct sx, sy.
Qed.
Lemma Bdiv_opp_r (x y : F) : Bdiv mode_NE x (Bopp y) = Bopp (Bdiv mode_NE x y).
Proof.
  apply B2SF_inj. rewrite B2SF_opp. destruct x as [sx|sx| |sx mx ex Hx], y as [sy|sy| |sy my ey Hy]; unfold Bdiv, Bopp; cbn [B2SF SpecFloat.SFopp]; try reflexivity; try (destruct sx, sy; reflexivity).
  rewrite !B2SF_SF2B. destruct (SpecFloat.SFdiv_core_binary _ _ _ _ _ _) as [[q e] l]. rewrite <- round_flip. f_equal. now destruct sx, sy.
Qed.
Lemma mir_mul b c x x' y y' : mir b x x' -> mir c y y' -> mir (xorb b c) (Bmult mode_NE x y) (Bmult mode_NE x' y').
Proof.
  assert (Z : forall s t (u v : F), mir c u v -> mir (xorb b c) (Bmult mode_NE (B754_zero s) u) (Bmult mode_NE (B754_zero t) v)).
  { intros s t u v [->|[[p ->] [q ->]]]; [|right; split; eexists; reflexivity]. destruct u as [p|p| |p m e H], c; cbn [flip Bopp Bmult]; try (right; split; eexists; reflexivity); left; destruct b; reflexivity. }
  assert (Z' : forall s t (u v : F), mir b u v -> mir (xorb b c) (Bmult mode_NE (B754_zero s) u) (Bmult mode_NE (B754_zero t) v)).
  { intros s t u v [->|[[p ->] [q ->]]]; [|right; split; eexists; reflexivity]. destruct u as [p|p| |p m e H], b; cbn [flip Bopp Bmult]; try (right; split; eexists; reflexivity); left; destruct c; reflexivity. }
  intros X Y. destruct X as [->|[[s ->] [t ->]]]; [|now apply Z]. destruct Y as [->|[[s ->] [t ->]]]; [|rewrite (Bmult_comm x), (Bmult_comm (flip b x)); apply Z'; now left].
  left. destruct b, c; cbn [flip xorb]; [now rewrite Bmult_opp|apply Bmult_opp_l|rewrite (Bmult_comm x), Bmult_opp_l; now rewrite Bmult_comm|reflexivity].
Qed.
Lemma mir_div L b c x x' y y' : mir b x x' -> mir c y y' -> alike (mir (xorb b c)) (@ndiv F (NumF L) x y) (@ndiv F (NumF L) x' y').
Proof.
  intros X Y. cbn [ndiv NumF]. unfold F_div. rewrite (mir_iszero _ _ _ Y). destruct (F_is_zero y) eqn:ZY; [reflexivity|]. cbn [alike].
  destruct Y as [->|[Y _]]; [|apply zero_is in Y; congruence].
  destruct X as [->|[[s ->] [t ->]]].
  - left. destruct b, c; cbn [flip xorb]; rewrite ?Bdiv_opp_l, ?Bdiv_opp_r, ?Bopp_involutive; reflexivity.
  - destruct y as [p|p| |p m e H]; try discriminate; destruct c; cbn [flip Bopp Bdiv]; try (right; split; eexists; reflexivity); left; destruct b; reflexivity.
Qed.
Lemma mir_sqrt L x x' : mir false x x' -> alike (mir false) (@nsqrt F (NumF L) x) (@nsqrt F (NumF L) x').
Proof.
  intros [->|[[s ->] [t ->]]]; [cbn [flip]; destruct (nsqrt x) as [r|e]; [apply mir_refl|reflexivity]|]. cbn [nsqrt NumF]. unfold F_sqrt. replace (Bltb (B754_zero s) (F_of_Z 0)) with false by (destruct s; reflexivity). replace (Bltb (B754_zero t) (F_of_Z 0)) with false by (destruct t; reflexivity).
  right. split; eexists; reflexivity.
Qed.
(** comparisons *)
Lemma mir_cmp b x x' y y' : mir b x x' -> mir b y y' ->
  Bltb x' y' = (if b then Bltb y x else Bltb x y) /\ Bleb x' y' = (if b then Bleb y x else Bleb x y) /\ Beqb x' y' = Beqb x y.
Proof.
  intros X Y. destruct (mir_fin _ _ _ X) as [FX EX]. destruct (mir_fin _ _ _ Y) as [FY EY].
  destruct (is_finite x) eqn:Fx; [destruct (is_finite y) eqn:Fy|].
  - rewrite !Bltb_correct, !Bleb_correct, !Beqb_correct by congruence. rewrite EX, EY. destruct b; [|easy]. split; [|split].
    + destruct (Rlt_bool_spec (B2R y) (B2R x)); [apply Rlt_bool_true|apply Rlt_bool_false]; lra.
    + destruct (Rle_bool_spec (B2R y) (B2R x)); [apply Rle_bool_true|apply Rle_bool_false]; lra.
    + destruct (Req_bool_spec (B2R x) (B2R y)); [apply Req_bool_true|apply Req_bool_false]; lra.
  - clear FX EX FY EY. destruct y as [[]|[]| |[] m e H]; try discriminate; destruct x as [[]|[]| |[] n f K]; try discriminate; destruct X as [->|[[s XS] [t ->]]]; try discriminate XS; destruct Y as [->|[[s' YS] [t' ->]]]; try discriminate YS; destruct b; try destruct t; repeat split; reflexivity.
  - clear FX EX FY EY. destruct y as [[]|[]| |[] m e H]; try discriminate; destruct x as [[]|[]| |[] n f K]; try discriminate; destruct X as [->|[[s XS] [t ->]]]; try discriminate XS; destruct Y as [->|[[s' YS] [t' ->]]]; try discriminate YS; destruct b; try destruct t'; repeat split; reflexivity.
Qed.
(** ** The functions *)
Definition vmir (sx sy : bool) (p q : vec F) : Prop := mir sx (vx p) (vx q) /\ mir sy (vy p) (vy q).
Ltac bools := repeat match goal with |- context [?b] => is_var b; match type of b with bool => case b end end; reflexivity.
Ltac mm := match goal with
  | |- mir _ (Bplus _ _ _) _ => eapply mir_add; [mm|eapply mir_eq; [mm|bools]]
  | |- mir _ (Bminus _ _ _) _ => eapply mir_sub; [mm|eapply mir_eq; [mm|bools]]
  | |- mir _ (Bmult _ _ _) _ => eapply mir_mul; [mm|mm]
  | |- mir _ (Bopp _) _ => eapply mir_opp; mm
  | H : mir _ ?x ?y |- mir _ ?x ?y => exact H
  | |- mir _ ?x ?x => apply mir_refl
  end.
Ltac mir := eapply mir_eq; [mm|bools].
Section Mirror.
  Variable L : libm.
  Variables sx sy : bool.
  Notation oo := (xorb sx sy).
  Notation rl := (vmir sx sy).
  Lemma mir_bind {A B} (R : A -> A -> Prop) (S : B -> B -> Prop) x y f g : alike R x y -> (forall a b, R a b -> alike S (f a) (g b)) -> alike S (bind x f) (bind y g).
  Proof. intros H K. destruct x, y; try contradiction; cbn [bind]; [now apply K|exact H]. Qed.
  Lemma mir_cmp0 b x x' : mir b x x' -> let z := @nlit F (NumF L) 0 1 in
    Bltb x' z = (if b then Bltb z x else Bltb x z) /\ Bltb z x' = (if b then Bltb x z else Bltb z x) /\ Bleb x' z = (if b then Bleb z x else Bleb x z) /\ Bleb z x' = (if b then Bleb x z else Bleb z x) /\ Beqb x' z = Beqb x z.
  Proof.
    intros X z. assert (Z : mir b z z) by (right; split; exists false; reflexivity). destruct (mir_cmp _ _ _ _ _ X Z) as (A & B & C). destruct (mir_cmp _ _ _ _ _ Z X) as (A' & B' & C'). auto.
  Qed.
  Lemma area_m a b c a' b' c' : rl a a' -> rl b b' -> rl c c' -> mir oo (@double_signed_area_st F (NumF L) a b c) (@double_signed_area_st F (NumF L) a' b' c').
  Proof. intros [] [] []. unfold double_signed_area_st. cbn [nsub nmul nadd NumF]. mir. Qed.
  Lemma inner_m a b a' b' : rl a a' -> rl b b' -> mir false (@Vector2D_inner_product F (NumF L) a b) (@Vector2D_inner_product F (NumF L) a' b').
  Proof. intros [] []. unfold Vector2D_inner_product. cbn [nsub nmul nadd NumF]. mir. Qed.
  Lemma outer_m a b a' b' : rl a a' -> rl b b' -> mir oo (@Vector2D_outer_product F (NumF L) a b) (@Vector2D_outer_product F (NumF L) a' b').
  Proof. intros [] []. unfold Vector2D_outer_product. cbn [nsub nmul nadd NumF]. mir. Qed.
  Lemma sq_m b x x' : mir b x x' -> Bmult mode_NE x' x' = Bmult mode_NE x x.
  Proof. intros [->|[[s ->] [t ->]]]; [destruct b; cbn [flip]; [apply Bmult_opp|reflexivity]|]. now destruct s, t. Qed.
  Lemma r2_m a a' : rl a a' -> @Vector2D_r2 F (NumF L) a' = @Vector2D_r2 F (NumF L) a.
  Proof. intros [X Y]. unfold Vector2D_r2. cbn [nmul NumF]. now rewrite (sq_m _ _ _ X), (sq_m _ _ _ Y). Qed.
  Lemma r_m a a' : rl a a' -> @Vector2D_r F (NumF L) a' = @Vector2D_r F (NumF L) a.
  Proof. intros A. unfold Vector2D_r. now rewrite (r2_m _ _ A). Qed.
  Lemma sub_m a b a' b' : rl a a' -> rl b b' -> rl (@Vector2D_sub F (NumF L) a b) (@Vector2D_sub F (NumF L) a' b').
  Proof. intros [] []. unfold Vector2D_sub, V. split; cbn [vx vy nsub NumF]; mir. Qed.
  Lemma add_m a b a' b' : rl a a' -> rl b b' -> rl (@Vector2D_add F (NumF L) a b) (@Vector2D_add F (NumF L) a' b').
  Proof. intros [] []. unfold Vector2D_add, V. split; cbn [vx vy nadd NumF]; mir. Qed.
  Lemma mul_m a a' k k' : rl a a' -> mir false k k' -> rl (@Vector2D_mul F (NumF L) a k) (@Vector2D_mul F (NumF L) a' k').
  Proof. intros [] K. unfold Vector2D_mul, V. split; cbn [vx vy nmul NumF]; mir. Qed.
  Lemma truediv_m a a' k k' : rl a a' -> mir false k k' -> alike (fun p q => v_valid p = true /\ v_valid q = true /\ rl p q) (@Vector2D_truediv F (NumF L) a k) (@Vector2D_truediv F (NumF L) a' k').
  Proof.
    intros [X Y] K. unfold Vector2D_truediv. eapply mir_bind; [apply (mir_div L _ _ _ _ _ _ X K)|]. intros p q P. eapply mir_bind; [apply (mir_div L _ _ _ _ _ _ Y K)|]. intros u v U.
    rewrite xorb_false_r in P, U. split; [reflexivity|]. split; [reflexivity|]. split; assumption.
  Qed.
  Lemma eq_m a b a' b' : rl a a' -> rl b b' -> @Vector2D_eq F (NumF L) a' b' = @Vector2D_eq F (NumF L) a b.
  Proof. intros [A1 A2] [B1 B2]. unfold Vector2D_eq. cbn [neqb NumF]. destruct (mir_cmp _ _ _ _ _ A1 B1) as (_ & _ & ->). now destruct (mir_cmp _ _ _ _ _ A2 B2) as (_ & _ & ->). Qed.
  Lemma weakly_m a b a' b' : rl a a' -> rl b b' -> @Vector2D_equals_weakly F (NumF L) a' b' = @Vector2D_equals_weakly F (NumF L) a b.
  Proof. intros A B. destruct (sub_m _ _ _ _ A B) as [X Y]. unfold Vector2D_equals_weakly. cbn [nabs NumF]. change (@nsub F (NumF L) (vx a') (vx b')) with (vx (@Vector2D_sub F (NumF L) a' b')). change (@nsub F (NumF L) (vy a') (vy b')) with (vy (@Vector2D_sub F (NumF L) a' b')). now rewrite (mir_abs _ _ _ X), (mir_abs _ _ _ Y). Qed.
  Lemma tri_area_m a b c a' b' c' : rl a a' -> rl b b' -> rl c c' -> @Triangle2D_area F (NumF L) (mkTri a' b' c') = @Triangle2D_area F (NumF L) (mkTri a b c).
  Proof. intros A B C. unfold Triangle2D_area. cbn [t_a t_b t_c nabs nmul NumF]. now rewrite (mir_abs _ _ _ (outer_m _ _ _ _ (sub_m _ _ _ _ B A) (sub_m _ _ _ _ C A))). Qed.
  Lemma set_length_m a a' k : rl a a' -> v_valid a' = v_valid a -> alike (fun p q => v_valid q = v_valid p /\ rl p q) (@Vector2D_set_length F (NumF L) a k) (@Vector2D_set_length F (NumF L) a' k).
  Proof.
    intros A V. unfold Vector2D_set_length. rewrite (r_m _ _ A). destruct (Vector2D_r a) as [m|e]; [|reflexivity]. cbn [bind nltb NumF].
    destruct (Bltb EPSILON m); [|split; assumption]. destruct (ndiv k m) as [q|e]; [|reflexivity]. cbn [bind alike]. destruct A as [X Y]. split; [exact V|]. unfold Vector2D_scale. split; cbn [vx vy nmul NumF]; mir.
  Qed.
  Lemma tri_m a b c p a' b' c' p' : rl a a' -> rl b b' -> rl c c' -> rl p p' -> @tri_contains F (NumF L) a' b' c' p' = @tri_contains F (NumF L) a b c p.
  Proof.
    intros A B C P. unfold tri_contains. cbn [nleb NumF].
    assert (G : forall u v u' v', rl u u' -> rl v v' -> mir oo (@Vector2D_outer_product F (NumF L) (Vector2D_of_vec (@Vector2D_sub F (NumF L) u p)) (Vector2D_of_vec (@Vector2D_sub F (NumF L) v p)))
      (@Vector2D_outer_product F (NumF L) (Vector2D_of_vec (@Vector2D_sub F (NumF L) u' p')) (Vector2D_of_vec (@Vector2D_sub F (NumF L) v' p')))) by (intros u v u' v' U V; apply outer_m; now apply sub_m).
    destruct (mir_cmp0 _ _ _ (G _ _ _ _ A B)) as (_ & _ & -> & -> & _). destruct (mir_cmp0 _ _ _ (G _ _ _ _ B C)) as (_ & _ & -> & -> & _). destruct (mir_cmp0 _ _ _ (G _ _ _ _ C A)) as (_ & _ & -> & -> & _).
    destruct oo; [apply orb_comm|reflexivity].
  Qed.
  Notation sl s t := (rl (s_origin s) (s_origin t) /\ rl (s_terminal s) (s_terminal t)).
  Lemma between_m b x y z x' y' z' : mir b x x' -> mir b y y' -> mir b z z' -> (Bleb x' z' && Bleb z' y') || (Bleb y' z' && Bleb z' x') = (Bleb x z && Bleb z y) || (Bleb y z && Bleb z x).
  Proof.
    intros X Y Z. destruct (mir_cmp _ _ _ _ _ X Z) as (_ & -> & _). destruct (mir_cmp _ _ _ _ _ Z X) as (_ & -> & _). destruct (mir_cmp _ _ _ _ _ Y Z) as (_ & -> & _). destruct (mir_cmp _ _ _ _ _ Z Y) as (_ & -> & _).
    destruct b; [|reflexivity]. now rewrite (andb_comm (Bleb z x)), (andb_comm (Bleb z y)), orb_comm.
  Qed.
  Lemma on_line_m s s' p p' : sl s s' -> rl p p' -> @check_intersects_on_line F (NumF L) s' p' = @check_intersects_on_line F (NumF L) s p.
  Proof.
    intros [[O1 O2] [T1 T2]] [P1 P2]. unfold check_intersects_on_line. cbn [neqb nleb NumF]. destruct (mir_cmp _ _ _ _ _ O1 T1) as (_ & _ & ->).
    now rewrite (between_m _ _ _ _ _ _ _ O2 T2 P2), (between_m _ _ _ _ _ _ _ O1 T1 P1).
  Qed.
  Lemma on_seg_m s s' p p' : sl s s' -> rl p p' -> @Segment2D_on_segment F (NumF L) s' p' = @Segment2D_on_segment F (NumF L) s p.
  Proof.
    intros S P. unfold Segment2D_on_segment. rewrite (on_line_m _ _ _ _ S P). cbn [neqb NumF]. now destruct (mir_cmp0 _ _ _ (area_m _ _ _ _ _ _ (proj1 S) (proj2 S) P)) as (_ & _ & _ & _ & ->).
  Qed.
  Lemma prod_m x y x' y' : mir oo x x' -> mir oo y y' -> Bltb (Bmult mode_NE x' y') (@nlit F (NumF L) 0 1) = Bltb (Bmult mode_NE x y) (@nlit F (NumF L) 0 1) /\ Bleb (Bmult mode_NE x' y') (@nlit F (NumF L) 0 1) = Bleb (Bmult mode_NE x y) (@nlit F (NumF L) 0 1).
  Proof. intros X Y. pose proof (mir_mul _ _ _ _ _ _ X Y) as M. rewrite xorb_nilpotent in M. now destruct (mir_cmp0 _ _ _ M) as (-> & _ & -> & _). Qed.
  Lemma meet_m s s' t t' : sl s s' -> sl t t' -> @Segment2D_exist_intersection_seg F (NumF L) s' t' = @Segment2D_exist_intersection_seg F (NumF L) s t.
  Proof.
    intros S T. unfold Segment2D_exist_intersection_seg. cbn [nltb nmul neqb NumF]. destruct S as [S1 S2] eqn:ES, T as [T1 T2] eqn:ET. clear ES ET.
    pose proof (area_m _ _ _ _ _ _ S1 S2 T1) as A0. pose proof (area_m _ _ _ _ _ _ S1 S2 T2) as A1. pose proof (area_m _ _ _ _ _ _ T1 T2 S1) as B0. pose proof (area_m _ _ _ _ _ _ T1 T2 S2) as B1.
    rewrite (proj1 (prod_m _ _ _ _ A0 A1)), (proj1 (prod_m _ _ _ _ B0 B1)), (eq_m _ _ _ _ S1 S2), (eq_m _ _ _ _ T1 T2), (eq_m _ _ _ _ S1 T1).
    destruct (mir_cmp0 _ _ _ A0) as (_ & _ & _ & _ & ->). destruct (mir_cmp0 _ _ _ A1) as (_ & _ & _ & _ & ->). destruct (mir_cmp0 _ _ _ B0) as (_ & _ & _ & _ & ->). destruct (mir_cmp0 _ _ _ B1) as (_ & _ & _ & _ & ->).
    rewrite (on_line_m s s' _ _ (conj S1 S2) T1), (on_line_m s s' _ _ (conj S1 S2) T2), (on_line_m t t' _ _ (conj T1 T2) S1), (on_line_m t t' _ _ (conj T1 T2) S2). reflexivity.
  Qed.
  Lemma except_m s s' t t' : sl s s' -> sl t t' -> @Segment2D_exist_intersection_except_endpoint F (NumF L) s' t' = @Segment2D_exist_intersection_except_endpoint F (NumF L) s t.
  Proof.
    intros [S1 S2] [T1 T2]. unfold Segment2D_exist_intersection_except_endpoint. cbn [nltb nmul NumF].
    now rewrite (proj1 (prod_m _ _ _ _ (area_m _ _ _ _ _ _ S1 S2 T1) (area_m _ _ _ _ _ _ S1 S2 T2))), (proj1 (prod_m _ _ _ _ (area_m _ _ _ _ _ _ T1 T2 S1) (area_m _ _ _ _ _ _ T1 T2 S2))).
  Qed.
  Lemma seg_contains_m s s' p p' : sl s s' -> rl p p' -> @Segment2D_contains F (NumF L) s' p' = @Segment2D_contains F (NumF L) s p.
  Proof.
    intros [[O1 O2] [T1 T2]] [P1 P2]. unfold Segment2D_contains. cbn [nleb nmul nsub NumF].
    assert (G : forall b x y z x' y' z', mir b x x' -> mir b y y' -> mir b z z' -> Bleb (Bmult mode_NE (Bminus mode_NE x' y') (Bminus mode_NE x' z')) (@CALC_ERROR F (NumF L)) = Bleb (Bmult mode_NE (Bminus mode_NE x y) (Bminus mode_NE x z)) (@CALC_ERROR F (NumF L))).
    { intros b x y z x' y' z' X Y Z. assert (M : mir false (Bmult mode_NE (Bminus mode_NE x y) (Bminus mode_NE x z)) (Bmult mode_NE (Bminus mode_NE x' y') (Bminus mode_NE x' z'))) by mir. now destruct (mir_cmp _ _ _ _ _ M (mir_refl (@CALC_ERROR F (NumF L)))) as (_ & -> & _). }
    now rewrite (G _ _ _ _ _ _ _ P1 O1 T1), (G _ _ _ _ _ _ _ P2 O2 T2).
  Qed.
  (** a line, with all its coefficients negated if [g] *)
  Definition lmir (g : bool) (l l' : line F) : Prop := mir (xorb g sy) (l_a l) (l_a l') /\ mir (xorb g sx) (l_b l) (l_b l') /\ mir (xorb g oo) (l_c l) (l_c l').
  Lemma line_m a b a' b' : rl a a' -> rl b b' -> lmir false (@Line2D_of_points F (NumF L) a b) (@Line2D_of_points F (NumF L) a' b').
  Proof. intros [] []. unfold Line2D_of_points, lmir. cbn [l_a l_b l_c nsub nmul nneg NumF]. split; [mir|]. split; mir. Qed.
  Lemma perp_m g l l' p p' : lmir g l l' -> rl p p' -> lmir (xorb g oo) (@Line2D_perpendicular F (NumF L) l p) (@Line2D_perpendicular F (NumF L) l' p').
  Proof. intros (A & B & C) []. unfold Line2D_perpendicular, lmir in *. cbn [l_a l_b l_c nsub nmul nneg NumF]. split; [mir|]. split; mir. Qed.
  Lemma abs_div b x x' (y : F) : mir b x x' -> bind (@ndiv F (NumF L) x' y) (fun q => Ok (Babs q)) = bind (@ndiv F (NumF L) x y) (fun q => Ok (Babs q)).
  Proof. intros X. pose proof (mir_div L _ _ _ _ _ _ X (mir_refl y)) as D. destruct (ndiv x y) as [q|e], (ndiv x' y) as [q'|e']; try contradiction; cbn [alike bind] in *; [now rewrite (mir_abs _ _ _ D)|congruence]. Qed.
  Lemma line_dist_m g l l' p p' : lmir g l l' -> rl p p' -> @Line2D_dist F (NumF L) l' p' = @Line2D_dist F (NumF L) l p.
  Proof.
    intros (A & B & C) [X Y]. unfold Line2D_dist. cbn [nmul nadd nabs NumF]. rewrite (sq_m _ _ _ A), (sq_m _ _ _ B). destruct (nsqrt _) as [r|e]; [|reflexivity]. cbn [bind]. apply (abs_div (xorb g oo)). mir.
  Qed.
  Lemma inter_m g h l l' k k' : lmir g l l' -> lmir h k k' -> alike (image sx sy) (@Line2D_intersection F (NumF L) l k) (@Line2D_intersection F (NumF L) l' k').
  Proof.
    intros (A & B & C) (A2 & B2 & C2). unfold Line2D_intersection. cbn [nltb nabs nmul nsub NumF].
    assert (D : mir (xorb (xorb g h) (xorb sx sy)) (Bminus mode_NE (Bmult mode_NE (l_a l) (l_b k)) (Bmult mode_NE (l_b l) (l_a k))) (Bminus mode_NE (Bmult mode_NE (l_a l') (l_b k')) (Bmult mode_NE (l_b l') (l_a k')))) by mir.
    rewrite (mir_abs _ _ _ D). destruct (Bltb (Babs _) _); [split; [reflexivity|discriminate]|].
    eapply mir_bind; [eapply (mir_div L (xorb (xorb g h) sy)); [mir|exact D]|]. intros x x' X. eapply mir_bind; [eapply (mir_div L (xorb (xorb g h) sx)); [mir|exact D]|]. intros y y' Y.
    split; [reflexivity|]. intros _. cbn [V vx vy]. split; eapply mir_eq; try eassumption; bools.
  Qed.
  Lemma parallel_m g h l l' k k' : lmir g l l' -> lmir h k k' -> @Line2D_is_parallel F (NumF L) l' k' = @Line2D_is_parallel F (NumF L) l k.
  Proof.
    intros (A & B & C) (A2 & B2 & C2). unfold Line2D_is_parallel. cbn [nltb nabs nmul nsub NumF].
    assert (D : mir (xorb (xorb g h) (xorb sx sy)) (Bminus mode_NE (Bmult mode_NE (l_a l) (l_b k)) (Bmult mode_NE (l_a k) (l_b l))) (Bminus mode_NE (Bmult mode_NE (l_a l') (l_b k')) (Bmult mode_NE (l_a k') (l_b l')))) by mir.
    now rewrite (mir_abs _ _ _ D).
  Qed.
  Lemma seg_inter_m s s' t t' allow : sl s s' -> sl t t' -> alike (image sx sy) (@Segment2D_intersection_seg F (NumF L) s t allow) (@Segment2D_intersection_seg F (NumF L) s' t' allow).
  Proof.
    intros S T. unfold Segment2D_intersection_seg. eapply mir_bind; [apply (inter_m false false); apply line_m; tauto|]. intros p p' [V I]. rewrite V. destruct (v_valid p) eqn:EV; cbn [negb orb]; [|split; [reflexivity|discriminate]].
    rewrite (seg_contains_m _ _ _ _ S (I eq_refl)), (seg_contains_m _ _ _ _ T (I eq_refl)), (except_m _ _ _ _ S T). destruct (_ || _); [split; [reflexivity|discriminate]|]. destruct (_ && _); [split; [reflexivity|discriminate]|]. split; [congruence|auto].
  Qed.
  Lemma nearest_m s s' p p' : sl s s' -> v_valid (s_origin s') = v_valid (s_origin s) -> v_valid (s_terminal s') = v_valid (s_terminal s) -> rl p p' -> alike (image sx sy) (@Segment2D_nearest_point F (NumF L) s p) (@Segment2D_nearest_point F (NumF L) s' p').
  Proof.
    intros [O T] VO VT P. unfold Segment2D_nearest_point. cbn [neqb nleb NumF].
    pose proof (r2_m _ _ (sub_m _ _ _ _ T O)) as R2. pose proof (inner_m _ _ _ _ (sub_m _ _ _ _ T O) (sub_m _ _ _ _ P O)) as IP. rewrite R2.
    destruct (Beqb _ _); [split; auto|].
    destruct (mir_cmp0 _ _ _ IP) as (_ & _ & -> & _). destruct (Bleb _ _); [split; auto|]. destruct (mir_cmp _ _ _ _ _ (mir_refl (@Vector2D_r2 F (NumF L) (@Vector2D_sub F (NumF L) (s_terminal s) (s_origin s)))) IP) as (_ & -> & _). destruct (Bleb _ _); [split; auto|].
    eapply mir_bind; [apply truediv_m; [apply mul_m; [apply sub_m; eassumption|exact IP]|apply mir_refl]|]. intros q q' (_ & _ & Q). split; [reflexivity|]. intros _. apply add_m; assumption.
  Qed.
  Lemma proj_m s s' p p' : sl s s' -> v_valid (s_origin s') = v_valid (s_origin s) -> rl p p' -> alike (image sx sy) (@Segment2D_projection F (NumF L) s p) (@Segment2D_projection F (NumF L) s' p').
  Proof.
    intros [O T] VO P. unfold Segment2D_projection. rewrite (r_m _ _ (sub_m _ _ _ _ T O)). destruct (Vector2D_r _) as [l|e]; [|reflexivity]. cbn [bind nltb NumF]. destruct (Bltb l _); [split; auto|].
    eapply mir_bind; [apply truediv_m; [apply sub_m; eassumption|apply mir_refl]|]. intros d d' (V1 & V2 & D). pose proof (inner_m _ _ _ _ D (sub_m _ _ _ _ P O)) as IP.
    destruct (mir_cmp _ _ _ _ _ (mir_refl (@nneg F (NumF L) (@EPSILON F (NumF L)))) IP) as (-> & _). destruct (mir_cmp _ _ _ _ _ IP (mir_refl (@nadd F (NumF L) l (@EPSILON F (NumF L))))) as (-> & _).
    destruct (_ && _); [|split; [reflexivity|discriminate]]. split; [reflexivity|]. intros _. destruct O as [O1 O2], D as [D1 D2]. unfold Vector2D_iadd, Vector2D_imul, Vector2D_of_vec, V. cbn [vx vy nadd nmul NumF].
    split; mir.
  Qed.
  (** polygons *)
  Lemma term_m e e' : rl (fst e) (fst e') /\ rl (snd e) (snd e') -> mir oo (@edge_term F (NumF L) e) (@edge_term F (NumF L) e').
  Proof. intros [[] []]. unfold edge_term. cbn [nsub nmul NumF]. mir. Qed.
  Lemma poly_area_m vs ws : Forall2 rl vs ws -> mir oo (@Polygon2D_double_signed_area F (NumF L) vs) (@Polygon2D_double_signed_area F (NumF L) ws).
  Proof.
    intros F2. unfold Polygon2D_double_signed_area. assert (Z : mir oo (@nlit F (NumF L) 0 1) (@nlit F (NumF L) 0 1)) by (right; split; exists false; reflexivity).
    assert (G : forall es es', Forall2 (fun p q => rl (fst p) (fst q) /\ rl (snd p) (snd q)) es es' -> forall z z', mir oo z z' -> mir oo (fold_left (fun s e => @nadd F (NumF L) s (@edge_term F (NumF L) e)) es z) (fold_left (fun s e => @nadd F (NumF L) s (@edge_term F (NumF L) e)) es' z')).
    { intros es es' E. induction E as [|e e' es es' H E IH]; intros z z' M; [exact M|]. cbn [fold_left]. apply IH. cbn [nadd NumF]. apply mir_add; [exact M|now apply term_m]. }
    destruct F2 as [|v w vs ws H F2]; [exact Z|]. destruct F2 as [|v1 w1 vs ws H1 F2]; [exact Z|]. destruct F2 as [|v2 w2 vs ws H2 F2]; [exact Z|].
    apply G; [|exact Z]. apply (P_UnitF.pairs_rel rl). repeat (constructor; [assumption|]). exact F2.
  Qed.
  Lemma extent_m b (l l' : list F) : Forall2 (mir b) l l' -> forall m m' n n', mir b m (if b then n' else m') -> mir b n (if b then m' else n') ->
    mir b (fold_left less l m) (if b then fold_left more l' n' else fold_left less l' m') /\ mir b (fold_left more l n) (if b then fold_left less l' m' else fold_left more l' n').
  Proof.
    intros F2. induction F2 as [|x y l l' H F2 IH]; intros m m' n n' M N; [auto|]. cbn [fold_left]. apply IH; unfold less, more.
    - destruct b; [destruct (mir_cmp _ _ _ _ _ M H) as (-> & _)|destruct (mir_cmp _ _ _ _ _ H M) as (-> & _)]; destruct (Bltb x m); assumption.
    - destruct b; [destruct (mir_cmp _ _ _ _ _ H N) as (-> & _)|destruct (mir_cmp _ _ _ _ _ N H) as (-> & _)]; destruct (Bltb n x); assumption.
  Qed.
  Lemma size_m b (l l' : list F) : Forall2 (mir b) l l' -> Babs (Bminus mode_NE (fold_left more l' minf) (fold_left less l' pinf)) = Babs (Bminus mode_NE (fold_left more l minf) (fold_left less l pinf)).
  Proof.
    intros F2. destruct (extent_m b l l' F2 pinf pinf minf minf) as [A B]; [destruct b; now left|destruct b; now left|].
    destruct b.
    - assert (S : forall x y : F, Babs (Bminus mode_NE x y) = Babs (Bminus mode_NE y x)) by (intros x y; destruct (Bminus_swap y x) as [->|[[s ->] [t ->]]]; [now destruct (Bminus mode_NE y x)|reflexivity]).
      rewrite (S _ (fold_left less l' pinf)). apply (mir_abs true). apply mir_sub; assumption.
    - apply (mir_abs false). apply mir_sub; assumption.
  Qed.
End Mirror.
Section MirrorPow.
  Variable L : libm.
  Hypothesis PE : pow_even L.
  Variables sx sy : bool.
  Notation rl := (vmir sx sy).
  Notation sl s t := (rl (s_origin s) (s_origin t) /\ rl (s_terminal s) (s_terminal t)).
  Lemma pow_m b x x' : mir b x x' -> @npowi F (NumF L) x' 2 = @npowi F (NumF L) x 2.
  Proof.
    assert (Q : forall z : F, F_powi L (Bopp z) 2 = F_powi L z 2).
    { intros z. unfold F_powi. rewrite PE, is_finite_Bopp. replace (F_is_zero (Bopp z)) with (F_is_zero z) by (destruct z as [s|s| |s m e H]; try reflexivity; now destruct s). reflexivity. }
    cbn [npowi NumF]. intros [->|[[s ->] [t ->]]]; [destruct b; cbn [flip]; [apply Q|reflexivity]|]. destruct s, t; try reflexivity; [exact (Q (B754_zero true))|exact (Q (B754_zero false))].
  Qed.
  Lemma dist2_m a b a' b' : rl a a' -> rl b b' -> @Vector2D_dist2 F (NumF L) a' b' = @Vector2D_dist2 F (NumF L) a b.
  Proof. intros A B. destruct (sub_m L sx sy _ _ _ _ A B) as [X Y]. unfold Vector2D_dist2. cbn [Vector2D_sub V vx vy] in X, Y. now rewrite (pow_m _ _ _ X), (pow_m _ _ _ Y). Qed.
  Lemma dist_m a b a' b' : rl a a' -> rl b b' -> @Vector2D_dist F (NumF L) a' b' = @Vector2D_dist F (NumF L) a b.
  Proof. intros A B. unfold Vector2D_dist. now rewrite (dist2_m _ _ _ _ A B). Qed.
  Lemma seg_dist_m s s' p p' : sl s s' -> rl p p' -> @Segment2D_dist_point F (NumF L) s' p' = @Segment2D_dist_point F (NumF L) s p.
  Proof.
    intros [O T] P. unfold Segment2D_dist_point, Segment2D_length. rewrite (dist_m _ _ _ _ O T), (dist_m _ _ _ _ O P). destruct (Vector2D_dist _ _) as [l|e]; [|reflexivity]. cbn [bind nabs nleb neqb nmul NumF].
    destruct (Beqb l _); [reflexivity|]. pose proof (inner_m L sx sy _ _ _ _ (sub_m L sx sy _ _ _ _ T O) (sub_m L sx sy _ _ _ _ P O)) as IP.
    destruct (mir_cmp0 L _ _ _ IP) as (_ & _ & _ & -> & _). destruct (mir_cmp _ _ _ _ _ IP (mir_refl (Bmult mode_NE l l))) as (_ & -> & _).
    destruct (_ && _); [apply (abs_div L (xorb sx sy)), area_m; assumption|]. now rewrite (dist2_m _ _ _ _ O P), (dist2_m _ _ _ _ T P).
  Qed.
  Lemma segs_m s s' t t' : sl s s' -> sl t t' -> @Segment2D_dist_seg F (NumF L) s' t' = @Segment2D_dist_seg F (NumF L) s t.
  Proof.
    intros S T. unfold Segment2D_dist_seg. now rewrite (meet_m L sx sy _ _ _ _ S T), (seg_dist_m _ _ _ _ S (proj1 T)), (seg_dist_m _ _ _ _ S (proj2 T)), (seg_dist_m _ _ _ _ T (proj1 S)), (seg_dist_m _ _ _ _ T (proj2 S)).
  Qed.
  Lemma far_m s s' p p' : sl s s' -> rl p p' -> @Segment2D_farthest_dist F (NumF L) s' p' = @Segment2D_farthest_dist F (NumF L) s p.
  Proof. intros [O T] P. unfold Segment2D_farthest_dist. now rewrite (dist2_m _ _ _ _ O P), (dist2_m _ _ _ _ T P). Qed.
  Lemma nearest_loop_m p p' es es' : rl p p' -> Forall2 (fun a b => rl (fst a) (fst b) /\ rl (snd a) (snd b)) es es' -> forall m, nearest L p' es' m = nearest L p es m.
  Proof.
    intros P F2. induction F2 as [|[a b] [a' b'] es es' [A B] F2 IH]; intros m; [reflexivity|]. cbn [fst snd] in A, B. cbn [nearest].
    rewrite (seg_dist_m (Segment2D_of_points a b) (Segment2D_of_points a' b') p p' (conj A B) P). destruct (Segment2D_dist_point _ p); [|reflexivity]. cbn [bind]. apply IH.
  Qed.
  Lemma outline_m vs ws p p' : Forall2 rl vs ws -> rl p p' -> poly_dist L ws p' false = poly_dist L vs p false.
  Proof.
    intros F2 P. pose proof (open_rel _ _ _ F2) as OP. destruct F2 as [|v w vs ws H F2]; [reflexivity|]. pose proof (last_rel _ _ _ _ _ (Forall2_cons _ _ H F2) H) as LR.
    destruct F2 as [|v1 w1 vs ws H1 F2]; [cbn [poly_dist]; apply (r_m L sx sy), sub_m; assumption|].
    unfold poly_dist. cbn [bind]. rewrite (nearest_loop_m p p' _ _ P OP). destruct (nearest L p _ pinf) as [m|e]; [|reflexivity]. cbn [bind].
    destruct F2 as [|v2 w2 vs ws H2 F2]; [reflexivity|]. apply nearest_loop_m; [exact P|]. constructor; [split; assumption|constructor].
  Qed.
End MirrorPow.
Lemma mirror_m sx sy v : vmir sx sy v (mirror sx sy v).
Proof. split; apply mir_flip. Qed.
Lemma mirrors_m sx sy vs : Forall2 (vmir sx sy) vs (map (mirror sx sy) vs).
Proof. induction vs; constructor; [apply mirror_m|assumption]. Qed.
Local Notation seg2 a b := (Segment2D_of_points a b).
Local Notation lin L a b := (@Line2D_of_points F (NumF L) a b).
(** ** C200 *)
(** Measures: sums, differences and multiples are mirrored, lengths, areas and inner products kept, outer products and
    signed areas change sign with the orientation. *)
Theorem C200_measures_F : forall (L : libm) (sx sy : bool) (a b c : vec F) (k : F),
  let a' := mirror sx sy a in let b' := mirror sx sy b in let c' := mirror sx sy c in
  image sx sy (@Vector2D_add F (NumF L) a b) (@Vector2D_add F (NumF L) a' b') /\
  image sx sy (@Vector2D_sub F (NumF L) a b) (@Vector2D_sub F (NumF L) a' b') /\
  image sx sy (@Vector2D_mul F (NumF L) a k) (@Vector2D_mul F (NumF L) a' k) /\
  alike (image sx sy) (@Vector2D_truediv F (NumF L) a k) (@Vector2D_truediv F (NumF L) a' k) /\
  alike (image sx sy) (@Vector2D_set_length F (NumF L) a k) (@Vector2D_set_length F (NumF L) a' k) /\
  mir false (@Vector2D_inner_product F (NumF L) a b) (@Vector2D_inner_product F (NumF L) a' b') /\
  mir (xorb sx sy) (@Vector2D_outer_product F (NumF L) a b) (@Vector2D_outer_product F (NumF L) a' b') /\
  @Vector2D_r2 F (NumF L) a' = @Vector2D_r2 F (NumF L) a /\
  @Vector2D_r F (NumF L) a' = @Vector2D_r F (NumF L) a /\
  mir (xorb sx sy) (@double_signed_area_st F (NumF L) a b c) (@double_signed_area_st F (NumF L) a' b' c') /\
  @Triangle2D_area F (NumF L) (mkTri a' b' c') = @Triangle2D_area F (NumF L) (mkTri a b c).
Proof.
  intros L sx sy a b c k a' b' c'. pose proof (mirror_m sx sy a) as A. pose proof (mirror_m sx sy b) as B. pose proof (mirror_m sx sy c) as C. fold a' in A. fold b' in B. fold c' in C.
  split; [split; [reflexivity|intros _; now apply add_m]|]. split; [split; [reflexivity|intros _; now apply sub_m]|]. split; [split; [reflexivity|intros _; apply mul_m; [exact A|apply mir_refl]]|]. split.
  { pose proof (truediv_m L sx sy a a' k k A (mir_refl k)) as T. destruct (Vector2D_truediv a k), (Vector2D_truediv a' k); try contradiction; [|exact T]. destruct T as (V1 & V2 & T). split; [congruence|intros _; exact T]. }
  split. { pose proof (set_length_m L sx sy a a' k A eq_refl) as T. destruct (Vector2D_set_length a k), (Vector2D_set_length a' k); try contradiction; [|exact T]. destruct T as [V T]. split; [exact V|intros _; exact T]. }
  split; [now apply (inner_m L sx sy)|]. split; [now apply outer_m|]. split; [now apply (r2_m L sx sy)|]. split; [now apply (r_m L sx sy)|]. split; [now apply area_m|now apply (tri_area_m L sx sy)].
Qed.
(** Tests: the same answer, those with a tolerance included. *)
Theorem C200_tests_F : forall (L : libm) (sx sy : bool) (a b c d : vec F),
  let a' := mirror sx sy a in let b' := mirror sx sy b in let c' := mirror sx sy c in let d' := mirror sx sy d in
  @Vector2D_eq F (NumF L) a' b' = @Vector2D_eq F (NumF L) a b /\
  @Vector2D_equals_weakly F (NumF L) a' b' = @Vector2D_equals_weakly F (NumF L) a b /\
  @Triangle2D_contains F (NumF L) (mkTri a' b' c') d' = @Triangle2D_contains F (NumF L) (mkTri a b c) d /\
  @Segment2D_on_segment F (NumF L) (seg2 a' b') c' = @Segment2D_on_segment F (NumF L) (seg2 a b) c /\
  @Segment2D_contains F (NumF L) (seg2 a' b') c' = @Segment2D_contains F (NumF L) (seg2 a b) c /\
  @Segment2D_exist_intersection_seg F (NumF L) (seg2 a' b') (seg2 c' d') = @Segment2D_exist_intersection_seg F (NumF L) (seg2 a b) (seg2 c d) /\
  @Segment2D_exist_intersection_except_endpoint F (NumF L) (seg2 a' b') (seg2 c' d') = @Segment2D_exist_intersection_except_endpoint F (NumF L) (seg2 a b) (seg2 c d) /\
  @Line2D_is_parallel F (NumF L) (lin L a' b') (lin L c' d') = @Line2D_is_parallel F (NumF L) (lin L a b) (lin L c d).
Proof.
  intros L sx sy a b c d a' b' c' d'. pose proof (mirror_m sx sy a) as A. pose proof (mirror_m sx sy b) as B. pose proof (mirror_m sx sy c) as C. pose proof (mirror_m sx sy d) as D. fold a' in A. fold b' in B. fold c' in C. fold d' in D.
  split; [now apply (eq_m L sx sy)|]. split; [now apply (weakly_m L sx sy)|]. split; [now apply (tri_m L sx sy)|]. split; [now apply (on_seg_m L sx sy)|]. split; [now apply (seg_contains_m L sx sy)|].
  split; [now apply (meet_m L sx sy)|]. split; [now apply (except_m L sx sy)|]. apply (parallel_m L sx sy false false); now apply line_m.
Qed.
(** Points and distances that are computed: the point is the image, or none is found in both; the distance is the same. *)
Theorem C200_points_F : forall (L : libm) (sx sy : bool) (a b c d : vec F) (allow : bool),
  let a' := mirror sx sy a in let b' := mirror sx sy b in let c' := mirror sx sy c in let d' := mirror sx sy d in
  @Line2D_dist F (NumF L) (lin L a' b') c' = @Line2D_dist F (NumF L) (lin L a b) c /\
  alike (image sx sy) (@Line2D_intersection F (NumF L) (lin L a b) (lin L c d)) (@Line2D_intersection F (NumF L) (lin L a' b') (lin L c' d')) /\
  alike (image sx sy) (@Line2D_projection F (NumF L) (lin L a b) c) (@Line2D_projection F (NumF L) (lin L a' b') c') /\
  alike (image sx sy) (@Segment2D_intersection_seg F (NumF L) (seg2 a b) (seg2 c d) allow) (@Segment2D_intersection_seg F (NumF L) (seg2 a' b') (seg2 c' d') allow) /\
  alike (image sx sy) (@Segment2D_nearest_point F (NumF L) (seg2 a b) c) (@Segment2D_nearest_point F (NumF L) (seg2 a' b') c') /\
  alike (image sx sy) (@Segment2D_projection F (NumF L) (seg2 a b) c) (@Segment2D_projection F (NumF L) (seg2 a' b') c').
Proof.
  intros L sx sy a b c d allow a' b' c' d'. pose proof (mirror_m sx sy a) as A. pose proof (mirror_m sx sy b) as B. pose proof (mirror_m sx sy c) as C. pose proof (mirror_m sx sy d) as D. fold a' in A. fold b' in B. fold c' in C. fold d' in D.
  pose proof (line_m L sx sy _ _ _ _ A B) as AB. pose proof (line_m L sx sy _ _ _ _ C D) as CD.
  split; [now apply (line_dist_m L sx sy false)|]. split; [now apply (inter_m L sx sy false false)|]. split; [apply (inter_m L sx sy false (xorb false (xorb sx sy))); [exact AB|now apply perp_m]|].
  split; [apply (seg_inter_m L sx sy); split; assumption|]. split; [apply (nearest_m L sx sy); try reflexivity; auto|]. apply (proj_m L sx sy); try reflexivity; auto.
Qed.
(** Distances through pow, if pow(-x, 2) = pow(x, 2). *)
Theorem C200_distances_F : forall (L : libm) (sx sy : bool) (a b c d : vec F) (r : F) (vs : list (vec F)), pow_even L ->
  let a' := mirror sx sy a in let b' := mirror sx sy b in let c' := mirror sx sy c in let d' := mirror sx sy d in
  @Vector2D_dist F (NumF L) a' b' = @Vector2D_dist F (NumF L) a b /\
  @Circle2D_contains F (NumF L) (mkCircle a' r) b' = @Circle2D_contains F (NumF L) (mkCircle a r) b /\
  @Segment2D_dist_point F (NumF L) (seg2 a' b') c' = @Segment2D_dist_point F (NumF L) (seg2 a b) c /\
  @Segment2D_dist_seg F (NumF L) (seg2 a' b') (seg2 c' d') = @Segment2D_dist_seg F (NumF L) (seg2 a b) (seg2 c d) /\
  @Segment2D_farthest_dist F (NumF L) (seg2 a' b') c' = @Segment2D_farthest_dist F (NumF L) (seg2 a b) c /\
  poly_dist L (map (mirror sx sy) vs) a' false = poly_dist L vs a false.
Proof.
  intros L sx sy a b c d r vs PE a' b' c' d'. pose proof (mirror_m sx sy a) as A. pose proof (mirror_m sx sy b) as B. pose proof (mirror_m sx sy c) as C. pose proof (mirror_m sx sy d) as D. fold a' in A. fold b' in B. fold c' in C. fold d' in D.
  split; [now apply (dist_m L PE sx sy)|]. split; [unfold Circle2D_contains; cbn [c_center c_radius]; now rewrite (dist2_m L PE sx sy _ _ _ _ A B)|]. split; [now apply (seg_dist_m L PE sx sy)|].
  split; [now apply (segs_m L PE sx sy)|]. split; [now apply (far_m L PE sx sy)|]. apply (outline_m L PE sx sy); [apply mirrors_m|exact A].
Qed.
(** Polygons: same area and same size of the bounding box; the orientation changes exactly if one of the axes is flipped. *)
Theorem C200_polygon_F : forall (L : libm) (sx sy : bool) (vs : list (vec F)), let ws := map (mirror sx sy) vs in
  @Polygon2D_area F (NumF L) ws = @Polygon2D_area F (NumF L) vs /\
  @Polygon2D_is_counter_clockwise F (NumF L) ws = (if xorb sx sy then @Polygon2D_is_clockwise F (NumF L) vs else @Polygon2D_is_counter_clockwise F (NumF L) vs) /\
  @Polygon2D_is_clockwise F (NumF L) ws = (if xorb sx sy then @Polygon2D_is_counter_clockwise F (NumF L) vs else @Polygon2D_is_clockwise F (NumF L) vs) /\
  alike (fun r s => r_size s = r_size r) (bounding_box L vs) (bounding_box L ws).
Proof.
  intros L sx sy vs ws. pose proof (poly_area_m L sx sy vs ws (mirrors_m sx sy vs)) as A. split; [|split; [|split]].
  - unfold Polygon2D_area. cbn [nabs nmul NumF]. apply (mir_abs (xorb sx sy)). rewrite <- (xorb_false_r (xorb sx sy)). apply mir_mul; [exact A|apply mir_refl].
  - unfold Polygon2D_is_counter_clockwise, Polygon2D_is_clockwise. cbn [nltb NumF]. now destruct (mir_cmp0 L _ _ _ A) as (_ & -> & _).
  - unfold Polygon2D_is_counter_clockwise, Polygon2D_is_clockwise. cbn [nltb NumF]. now destruct (mir_cmp0 L _ _ _ A) as (-> & _).
  - unfold ws. destruct vs as [|v vs]; [reflexivity|]. cbn [map bounding_box alike Rect2D_of_vec_size r_size]. unfold Size2D_init. cbn [nabs NumF].
    assert (G : forall (f : vec F -> F) b, (forall u, f (mirror sx sy u) = flip b (f u)) -> Forall2 (mir b) (map f (v :: vs)) (map f (map (mirror sx sy) (v :: vs)))).
    { intros f b H. generalize (v :: vs). intros l. induction l as [|u l IH]; constructor; [left; apply H|exact IH]. }
    pose proof (size_m sx _ _ (G (@vx F) sx (fun u => eq_refl))) as S1. pose proof (size_m sy _ _ (G (@vy F) sy (fun u => eq_refl))) as S2. cbn [map] in S1, S2. now rewrite S1, S2.
Qed.
(** Polygon containment is not symmetric on the boundary: of two mirror-image edge points of a square one is inside, the other not. *)
Theorem C200_contains_refuted_F : forall L : libm, ~ (forall (sx sy : bool) (vs : list (vec F)) (p : vec F) (allow : bool),
  @Polygon2D_contains F (NumF L) (map (mirror sx sy) vs) (mirror sx sy p) allow = @Polygon2D_contains F (NumF L) vs p allow).
Proof.
  intros L H. pose (z := fun x y => mkVec (F_of_Z x) (F_of_Z y) true). specialize (H true false [z 0%Z 0%Z; z 2%Z 0%Z; z 2%Z 2%Z; z 0%Z 2%Z] (z 0%Z 1%Z) true). vm_compute in H. discriminate.
Qed.
(** The hypothesis on pow is met, the mirror moves points, and mirrored lines do meet. *)
Example C200_nonvacuous : forall L : libm, let z := fun x y => mkVec (F_of_Z x) (F_of_Z y) true in
  pow_even libm_sq /\ mirror true false (z 1%Z 2%Z) = z (-1)%Z 2%Z /\
  (exists p, @Line2D_intersection F (NumF L) (lin L (z 0%Z 0%Z) (z 2%Z 2%Z)) (lin L (z 0%Z 2%Z) (z 2%Z 0%Z)) = Ok p /\ v_valid p = true /\ vx p = F_of_Z 1).
Proof.
  intros L z. split; [apply C134_nonvacuous|]. split; [unfold mirror, z; cbn [vx vy v_valid flip]; f_equal; apply B2SF_inj; reflexivity|].
  assert (G : match @Line2D_intersection F (NumF L) (lin L (z 0%Z 0%Z) (z 2%Z 2%Z)) (lin L (z 0%Z 2%Z) (z 2%Z 0%Z)) with Ok p => v_valid p && Beqb (vx p) (F_of_Z 1) | Raise _ => false end = true) by (vm_compute; reflexivity).
  destruct (Line2D_intersection _ _) as [p|]; [|discriminate]. apply andb_true_iff in G as [G1 G2]. exists p. split; [reflexivity|]. split; [exact G1|].
  destruct (F_of_Z_exact 1 eq_refl) as [E1 E2]. assert (FP : is_finite (vx p) = true) by (destruct (vx p); try discriminate; try (destruct s; discriminate); reflexivity).
  rewrite Beqb_correct in G2 by assumption. destruct (Req_bool_spec (B2R (vx p)) (B2R (F_of_Z 1))); [|discriminate]. apply B2R_inj; [apply is_finite_strict_B2R; lra|apply is_finite_strict_B2R; lra|assumption].
Qed.
