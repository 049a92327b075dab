(** * P_SwapF: swapping the axes, in doubles (C201) *)
From Coq Require Import ZArith List Bool String Reals Lra Lia.
From Flocq Require Import Core BinarySingleNaN.
From Verif Require Import Base Types NumR NumF R_Tac Spec Abs M_Angle M_Vector M_Line M_Ray M_Triangle M_Segment M_Circle M_Sector M_Rect M_Polygon M_PolyF L_Float P_Float P_VecF P_RectF P_PowF P_UnitF P_UnitF2 P_MirrorF.
Import ListNotations.
Local Open Scope R_scope.

(** ** Specification *)
(** The point (y, x). *)
Definition swap (v : vec F) : vec F := mkVec (vy v) (vx v) (v_valid v).
(** q is (y, x) for p = (x, y), up to the signs of zeros; both are valid or both are not. *)
Definition swapped (p q : vec F) : Prop := v_valid q = v_valid p /\ (v_valid p = true -> mir false (vy p) (vx q) /\ mir false (vx p) (vy q)).
(** The same answer, or both calls raise (perhaps the exception of the other coordinate first). *)
Definition same {A} (x y : res A) : Prop := match x, y with Ok a, Ok b => b = a | Raise _, Raise _ => True | _, _ => False end.

Definition vsw (p q : vec F) : Prop := mir false (vy p) (vx q) /\ mir false (vx p) (vy q).
Lemma add_sw b x y x' y' : mir b x y' -> mir b y x' -> mir b (Bplus mode_NE x y) (Bplus mode_NE x' y').
Proof. intros X Y. rewrite (Bplus_comm x'). now apply mir_add. Qed.
Lemma mir_trans b c x y z : mir b x y -> mir c y z -> mir (xorb b c) x z.
Proof.
  intros X Y. pose proof (mir_zero _ _ _ Y) as Z. destruct X as [->|[A B]]; [|right; tauto]. destruct Y as [->|[A B]]; [left; rewrite flip_flip; now rewrite xorb_comm|right]. split; [now apply (flip_zero b)|exact B].
Qed.
Lemma sub_sw b x y x' y' : mir b x y' -> mir b y x' -> mir (negb b) (Bminus mode_NE x y) (Bminus mode_NE x' y').
Proof.
  intros X Y. assert (S : mir true (Bminus mode_NE x y) (Bminus mode_NE y x)) by (destruct (Bminus_swap x y) as [E|[A B]]; [now left|now right]).
  apply (mir_eq (xorb true b)); [|now destruct b]. eapply mir_trans; [exact S|]. now apply mir_sub.
Qed.
Lemma mul_sw b c x y x' y' : mir b x y' -> mir c y x' -> mir (xorb b c) (Bmult mode_NE x y) (Bmult mode_NE x' y').
Proof. intros X Y. rewrite (Bmult_comm x'). now apply mir_mul. Qed.
Section Swap.
  Variable L : libm.
  Notation rl := vsw.
  Lemma sw_sub a b a' b' : rl a a' -> rl b b' -> rl (@Vector2D_sub F (NumF L) a b) (@Vector2D_sub F (NumF L) a' b').
  Proof. intros [] []. unfold Vector2D_sub, V. split; cbn [vx vy nsub NumF]; apply mir_sub; assumption. Qed.
  Lemma sw_add a b a' b' : rl a a' -> rl b b' -> rl (@Vector2D_add F (NumF L) a b) (@Vector2D_add F (NumF L) a' b').
  Proof. intros [] []. unfold Vector2D_add, V. split; cbn [vx vy nadd NumF]; apply mir_add; assumption. Qed.
  Lemma sw_mul a a' k k' : rl a a' -> mir false k k' -> rl (@Vector2D_mul F (NumF L) a k) (@Vector2D_mul F (NumF L) a' k').
  Proof. intros [] K. unfold Vector2D_mul, V. split; cbn [vx vy nmul NumF]; apply (mir_mul false false); assumption. Qed.
  Lemma sw_truediv a a' k k' : rl a a' -> mir false k k' -> alike (fun p q => v_valid p = true /\ v_valid q = true /\ rl p q) (@Vector2D_truediv F (NumF L) a k) (@Vector2D_truediv F (NumF L) a' k').
  Proof.
    intros [X Y] K. unfold Vector2D_truediv. pose proof (mir_div L _ _ _ _ _ _ X K) as D1. pose proof (mir_div L _ _ _ _ _ _ Y K) as D2. cbn [xorb] in D1, D2.
    assert (Z : forall u u' : F, match @ndiv F (NumF L) u k, @ndiv F (NumF L) u' k with Ok _, Ok _ => True | Raise e, Raise f => e = f | _, _ => False end) by (intros u u'; cbn [ndiv NumF]; unfold F_div; destruct (F_is_zero k); [reflexivity|exact I]).
    specialize (Z (vx a) (vy a)). destruct (ndiv (vx a) k), (ndiv (vy a) k), (ndiv (vx a') k'), (ndiv (vy a') k'); try contradiction; cbn [bind alike] in *; try congruence.
    split; [reflexivity|]. split; [reflexivity|]. split; assumption.
  Qed.
  Lemma sw_inner a b a' b' : rl a a' -> rl b b' -> mir false (@Vector2D_inner_product F (NumF L) a b) (@Vector2D_inner_product F (NumF L) a' b').
  Proof. intros [] []. unfold Vector2D_inner_product. cbn [nmul nadd NumF]. apply add_sw; apply (mir_mul false false); assumption. Qed.
  Lemma sw_outer a b a' b' : rl a a' -> rl b b' -> mir true (@Vector2D_outer_product F (NumF L) a b) (@Vector2D_outer_product F (NumF L) a' b').
  Proof. intros [] []. unfold Vector2D_outer_product. cbn [nmul nsub NumF]. apply (sub_sw false); apply (mir_mul false false); assumption. Qed.
  Lemma sw_r2 a a' : rl a a' -> @Vector2D_r2 F (NumF L) a' = @Vector2D_r2 F (NumF L) a.
  Proof. intros [X Y]. unfold Vector2D_r2. cbn [nadd nmul NumF]. rewrite (sq_m _ _ _ X), (sq_m _ _ _ Y). apply Bplus_comm. Qed.
  Lemma sw_r a a' : rl a a' -> @Vector2D_r F (NumF L) a' = @Vector2D_r F (NumF L) a.
  Proof. intros A. unfold Vector2D_r. now rewrite (sw_r2 _ _ A). Qed.
  Lemma sw_area a b c a' b' c' : rl a a' -> rl b b' -> rl c c' -> mir true (@double_signed_area_st F (NumF L) a b c) (@double_signed_area_st F (NumF L) a' b' c').
  Proof.
    intros [A1 A2] [B1 B2] [C1 C2]. unfold double_signed_area_st. cbn [nsub nmul nadd NumF].
    assert (S : forall x y x' y', mir false x x' -> mir false y y' -> mir true (Bminus mode_NE x y) (Bminus mode_NE y' x')) by (intros; now apply (sub_sw false)).
    apply add_sw.
    - apply (mul_sw true false); [now apply S|now apply mir_sub].
    - apply (mul_sw false true); [now apply mir_sub|now apply S].
  Qed.
  Lemma sw_eq a b a' b' : rl a a' -> rl b b' -> @Vector2D_eq F (NumF L) a' b' = @Vector2D_eq F (NumF L) a b.
  Proof. intros [A1 A2] [B1 B2]. unfold Vector2D_eq. cbn [neqb NumF]. destruct (mir_cmp _ _ _ _ _ A1 B1) as (_ & _ & ->). destruct (mir_cmp _ _ _ _ _ A2 B2) as (_ & _ & ->). apply andb_comm. Qed.
  Lemma sw_weakly a b a' b' : rl a a' -> rl b b' -> @Vector2D_equals_weakly F (NumF L) a' b' = @Vector2D_equals_weakly F (NumF L) a b.
  Proof. intros A B. destruct (sw_sub _ _ _ _ A B) as [X Y]. unfold Vector2D_equals_weakly. cbn [nabs NumF]. change (@nsub F (NumF L) (vx a') (vx b')) with (vx (@Vector2D_sub F (NumF L) a' b')). change (@nsub F (NumF L) (vy a') (vy b')) with (vy (@Vector2D_sub F (NumF L) a' b')). rewrite (mir_abs _ _ _ X), (mir_abs _ _ _ Y). apply andb_comm. Qed.
  Lemma sw_tri_area a b c a' b' c' : rl a a' -> rl b b' -> rl c c' -> @Triangle2D_area F (NumF L) (mkTri a' b' c') = @Triangle2D_area F (NumF L) (mkTri a b c).
  Proof. intros A B C. unfold Triangle2D_area. cbn [t_a t_b t_c nabs nmul NumF]. now rewrite (mir_abs _ _ _ (sw_outer _ _ _ _ (sw_sub _ _ _ _ B A) (sw_sub _ _ _ _ C A))). Qed.
  Lemma sw_set_length a a' k : rl a a' -> v_valid a' = v_valid a -> alike (fun p q => v_valid q = v_valid p /\ rl p q) (@Vector2D_set_length F (NumF L) a k) (@Vector2D_set_length F (NumF L) a' k).
  Proof.
    intros A V. unfold Vector2D_set_length. rewrite (sw_r _ _ A). destruct (Vector2D_r a) as [m|e]; [|reflexivity]. cbn [bind nltb NumF].
    destruct (Bltb EPSILON m); [|split; assumption]. destruct (ndiv k m) as [q|e]; [|reflexivity]. cbn [bind alike]. destruct A as [X Y]. split; [exact V|]. unfold Vector2D_scale. split; cbn [vx vy nmul NumF]; apply (mir_mul false false); try assumption; apply mir_refl.
  Qed.
  Lemma sw_tri a b c p a' b' c' p' : rl a a' -> rl b b' -> rl c c' -> rl p p' -> @tri_contains F (NumF L) a' b' c' p' = @tri_contains F (NumF L) a b c p.
  Proof.
    intros A B C P. unfold tri_contains. cbn [nleb NumF].
    assert (G : forall u v u' v', rl u u' -> rl v v' -> mir true (@Vector2D_outer_product F (NumF L) (Vector2D_of_vec (@Vector2D_sub F (NumF L) u p)) (Vector2D_of_vec (@Vector2D_sub F (NumF L) v p)))
      (@Vector2D_outer_product F (NumF L) (Vector2D_of_vec (@Vector2D_sub F (NumF L) u' p')) (Vector2D_of_vec (@Vector2D_sub F (NumF L) v' p')))) by (intros u v u' v' U V; apply sw_outer; now apply sw_sub).
    destruct (mir_cmp0 L _ _ _ (G _ _ _ _ A B)) as (_ & _ & -> & -> & _). destruct (mir_cmp0 L _ _ _ (G _ _ _ _ B C)) as (_ & _ & -> & -> & _). destruct (mir_cmp0 L _ _ _ (G _ _ _ _ C A)) as (_ & _ & -> & -> & _).
    apply orb_comm.
  Qed.
  Notation sl s t := (rl (s_origin s) (s_origin t) /\ rl (s_terminal s) (s_terminal t)).
  Lemma sw_prod x y x' y' : mir true x x' -> mir true y y' -> Bltb (Bmult mode_NE x' y') (@nlit F (NumF L) 0 1) = Bltb (Bmult mode_NE x y) (@nlit F (NumF L) 0 1).
  Proof. intros X Y. pose proof (mir_mul _ _ _ _ _ _ X Y) as M. now destruct (mir_cmp0 L _ _ _ M) as (-> & _). Qed.
  Lemma sw_except s s' t t' : sl s s' -> sl t t' -> @Segment2D_exist_intersection_except_endpoint F (NumF L) s' t' = @Segment2D_exist_intersection_except_endpoint F (NumF L) s t.
  Proof.
    intros [S1 S2] [T1 T2]. unfold Segment2D_exist_intersection_except_endpoint. cbn [nltb nmul NumF].
    now rewrite (sw_prod _ _ _ _ (sw_area _ _ _ _ _ _ S1 S2 T1) (sw_area _ _ _ _ _ _ S1 S2 T2)), (sw_prod _ _ _ _ (sw_area _ _ _ _ _ _ T1 T2 S1) (sw_area _ _ _ _ _ _ T1 T2 S2)).
  Qed.
  Lemma sw_seg_contains s s' p p' : sl s s' -> rl p p' -> @Segment2D_contains F (NumF L) s' p' = @Segment2D_contains F (NumF L) s p.
  Proof.
    intros [[O1 O2] [T1 T2]] [P1 P2]. unfold Segment2D_contains. cbn [nleb nmul nsub NumF].
    assert (G : forall x y z x' y' z', mir false x x' -> mir false y y' -> mir false z z' -> Bleb (Bmult mode_NE (Bminus mode_NE x' y') (Bminus mode_NE x' z')) (@CALC_ERROR F (NumF L)) = Bleb (Bmult mode_NE (Bminus mode_NE x y) (Bminus mode_NE x z)) (@CALC_ERROR F (NumF L))).
    { intros x y z x' y' z' X Y Z. assert (M : mir false (Bmult mode_NE (Bminus mode_NE x y) (Bminus mode_NE x z)) (Bmult mode_NE (Bminus mode_NE x' y') (Bminus mode_NE x' z'))) by mir. now destruct (mir_cmp _ _ _ _ _ M (mir_refl (@CALC_ERROR F (NumF L)))) as (_ & -> & _). }
    rewrite (G _ _ _ _ _ _ P1 O1 T1), (G _ _ _ _ _ _ P2 O2 T2). apply andb_comm.
  Qed.
  (** the swapped line, with all its coefficients negated if [g] *)
  Definition lsw (g : bool) (l l' : line F) : Prop := mir g (l_b l) (l_a l') /\ mir g (l_a l) (l_b l') /\ mir g (l_c l) (l_c l').
  Lemma sw_line a b a' b' : rl a a' -> rl b b' -> lsw true (@Line2D_of_points F (NumF L) a b) (@Line2D_of_points F (NumF L) a' b').
  Proof.
    intros [A1 A2] [B1 B2]. unfold Line2D_of_points, lsw. cbn [l_a l_b l_c nsub nmul nneg NumF].
    assert (DA : mir false (Bminus mode_NE (vy b) (vy a)) (Bminus mode_NE (vx b') (vx a'))) by now apply mir_sub.
    assert (DB : mir false (Bminus mode_NE (vx b) (vx a)) (Bminus mode_NE (vy b') (vy a'))) by now apply mir_sub.
    split; [|split].
    - eapply mir_eq; [eapply (mir_trans false true); [exact DB|apply (mir_flip true)]|reflexivity].
    - now apply (mir_opp_l false).
    - apply (sub_sw false).
      + rewrite Bopp_involutive. apply (mir_mul false false); [exact DA|exact A2].
      + rewrite Bopp_involutive. apply (mir_mul false false); [exact DB|exact A1].
  Qed.
  Lemma sw_perp g l l' p p' : lsw g l l' -> rl p p' -> lsw (negb g) (@Line2D_perpendicular F (NumF L) l p) (@Line2D_perpendicular F (NumF L) l' p').
  Proof.
    intros (A & B & C) [X Y]. unfold Line2D_perpendicular, lsw. cbn [l_a l_b l_c nsub nmul nneg NumF]. split; [now apply mir_opp_l|]. split.
    - eapply mir_eq; [eapply (mir_trans g true); [exact A|apply (mir_flip true)]|now destruct g].
    - apply sub_sw; (eapply mir_eq; [apply mir_mul; eassumption|now destruct g]).
  Qed.
  Lemma sw_line_dist g l l' p p' : lsw g l l' -> rl p p' -> @Line2D_dist F (NumF L) l' p' = @Line2D_dist F (NumF L) l p.
  Proof.
    intros (A & B & C) [X Y]. unfold Line2D_dist. cbn [nmul nadd nabs NumF]. rewrite (sq_m _ _ _ A), (sq_m _ _ _ B), (Bplus_comm (Bmult mode_NE (l_b l) (l_b l))). destruct (nsqrt _) as [r|e]; [|reflexivity]. cbn [bind]. apply (abs_div L g).
    apply mir_add; [|exact C]. apply add_sw; (eapply mir_eq; [apply mir_mul; eassumption|now destruct g]).
  Qed.
  Lemma sw_inter g h l l' k k' : lsw g l l' -> lsw h k k' -> alike swapped (@Line2D_intersection F (NumF L) l k) (@Line2D_intersection F (NumF L) l' k').
  Proof.
    intros (A & B & C) (A2 & B2 & C2). unfold Line2D_intersection. cbn [nltb nabs nmul nsub NumF].
    assert (D : mir (negb (xorb g h)) (Bminus mode_NE (Bmult mode_NE (l_a l) (l_b k)) (Bmult mode_NE (l_b l) (l_a k))) (Bminus mode_NE (Bmult mode_NE (l_a l') (l_b k')) (Bmult mode_NE (l_b l') (l_a k')))) by (apply sub_sw; now apply mir_mul).
    assert (X : mir (xorb g h) (Bminus mode_NE (Bmult mode_NE (l_b l) (l_c k)) (Bmult mode_NE (l_b k) (l_c l))) (Bminus mode_NE (Bmult mode_NE (l_a l') (l_c k')) (Bmult mode_NE (l_a k') (l_c l')))).
    { apply mir_sub; (eapply mir_eq; [apply mir_mul; eassumption|bools]). }
    assert (Y : mir (xorb g h) (Bminus mode_NE (Bmult mode_NE (l_a k) (l_c l)) (Bmult mode_NE (l_a l) (l_c k))) (Bminus mode_NE (Bmult mode_NE (l_b k') (l_c l')) (Bmult mode_NE (l_b l') (l_c k')))).
    { apply mir_sub; (eapply mir_eq; [apply mir_mul; eassumption|bools]). }
    assert (N : forall x y : F, mir true (Bminus mode_NE x y) (Bminus mode_NE y x)) by (intros x y; apply (sub_sw false); apply mir_refl).
    rewrite (mir_abs _ _ _ D). destruct (Bltb (Babs _) _); [split; [reflexivity|discriminate]|].
    set (d := Bminus mode_NE (Bmult mode_NE (l_a l) (l_b k)) _) in *. set (d' := Bminus mode_NE (Bmult mode_NE (l_a l') (l_b k')) _) in *.
    pose proof (mir_div L _ _ _ _ _ _ (mir_trans _ _ _ _ _ X (N _ _)) D) as QX. pose proof (mir_div L _ _ _ _ _ _ (mir_trans _ _ _ _ _ Y (N _ _)) D) as QY.
    assert (E : forall u v : F, match @ndiv F (NumF L) u d, @ndiv F (NumF L) v d with Ok _, Ok _ => True | Raise e, Raise f => e = f | _, _ => False end) by (intros u v; cbn [ndiv NumF]; unfold F_div; destruct (F_is_zero d); [reflexivity|exact I]).
    specialize (E (Bminus mode_NE (Bmult mode_NE (l_b l) (l_c k)) (Bmult mode_NE (l_b k) (l_c l))) (Bminus mode_NE (Bmult mode_NE (l_a k) (l_c l)) (Bmult mode_NE (l_a l) (l_c k)))).
    destruct (@ndiv F (NumF L) _ d) as [x|e1] in E, QX |- *; destruct (@ndiv F (NumF L) _ d) as [y|e2] in E, QY |- *; try contradiction;
      destruct (@ndiv F (NumF L) _ d') as [u|e3] in QY |- *; try contradiction; destruct (@ndiv F (NumF L) _ d') as [w|e4] in QX |- *; try contradiction; cbn [bind alike] in *; try congruence.
    split; [reflexivity|]. intros _. cbn [V vx vy]. split; eapply mir_eq; try eassumption; bools.
  Qed.
  Lemma sw_parallel g h l l' k k' : lsw g l l' -> lsw h k k' -> @Line2D_is_parallel F (NumF L) l' k' = @Line2D_is_parallel F (NumF L) l k.
  Proof.
    intros (A & B & C) (A2 & B2 & C2). unfold Line2D_is_parallel. cbn [nltb nabs nmul nsub NumF].
    assert (D : mir (negb (xorb g h)) (Bminus mode_NE (Bmult mode_NE (l_a l) (l_b k)) (Bmult mode_NE (l_a k) (l_b l))) (Bminus mode_NE (Bmult mode_NE (l_a l') (l_b k')) (Bmult mode_NE (l_a k') (l_b l')))).
    { apply sub_sw; (eapply mir_eq; [apply mul_sw; eassumption|bools]). }
    now rewrite (mir_abs _ _ _ D).
  Qed.
  Lemma sw_seg_inter s s' t t' allow : sl s s' -> sl t t' -> alike swapped (@Segment2D_intersection_seg F (NumF L) s t allow) (@Segment2D_intersection_seg F (NumF L) s' t' allow).
  Proof.
    intros S T. unfold Segment2D_intersection_seg. eapply mir_bind; [apply (sw_inter true true); apply sw_line; tauto|]. intros p p' [V I]. rewrite V. destruct (v_valid p) eqn:EV; cbn [negb orb]; [|split; [reflexivity|discriminate]].
    rewrite (sw_seg_contains _ _ _ _ S (I eq_refl)), (sw_seg_contains _ _ _ _ T (I eq_refl)), (sw_except _ _ _ _ S T). destruct (_ || _); [split; [reflexivity|discriminate]|]. destruct (_ && _); [split; [reflexivity|discriminate]|]. split; [congruence|auto].
  Qed.
  Lemma sw_nearest s s' p p' : sl s s' -> v_valid (s_origin s') = v_valid (s_origin s) -> v_valid (s_terminal s') = v_valid (s_terminal s) -> rl p p' -> alike swapped (@Segment2D_nearest_point F (NumF L) s p) (@Segment2D_nearest_point F (NumF L) s' p').
  Proof.
    intros [O T] VO VT P. unfold Segment2D_nearest_point. cbn [neqb nleb NumF].
    pose proof (sw_r2 _ _ (sw_sub _ _ _ _ T O)) as R2. pose proof (sw_inner _ _ _ _ (sw_sub _ _ _ _ T O) (sw_sub _ _ _ _ P O)) as IP. rewrite R2.
    destruct (Beqb _ _); [split; auto|].
    destruct (mir_cmp0 L _ _ _ IP) as (_ & _ & -> & _). destruct (Bleb _ _); [split; auto|]. destruct (mir_cmp _ _ _ _ _ (mir_refl (@Vector2D_r2 F (NumF L) (@Vector2D_sub F (NumF L) (s_terminal s) (s_origin s)))) IP) as (_ & -> & _). destruct (Bleb _ _); [split; auto|].
    eapply mir_bind; [apply sw_truediv; [apply sw_mul; [apply sw_sub; eassumption|exact IP]|apply mir_refl]|]. intros q q' (_ & _ & Q). split; [reflexivity|]. intros _. apply sw_add; assumption.
  Qed.
  Lemma sw_proj s s' p p' : sl s s' -> v_valid (s_origin s') = v_valid (s_origin s) -> rl p p' -> alike swapped (@Segment2D_projection F (NumF L) s p) (@Segment2D_projection F (NumF L) s' p').
  Proof.
    intros [O T] VO P. unfold Segment2D_projection. rewrite (sw_r _ _ (sw_sub _ _ _ _ T O)). destruct (Vector2D_r _) as [l|e]; [|reflexivity]. cbn [bind nltb NumF]. destruct (Bltb l _); [split; auto|].
    eapply mir_bind; [apply sw_truediv; [apply sw_sub; eassumption|apply mir_refl]|]. intros d d' (V1 & V2 & D). pose proof (sw_inner _ _ _ _ D (sw_sub _ _ _ _ P O)) as IP.
    destruct (mir_cmp _ _ _ _ _ (mir_refl (@nneg F (NumF L) (@EPSILON F (NumF L)))) IP) as (-> & _). destruct (mir_cmp _ _ _ _ _ IP (mir_refl (@nadd F (NumF L) l (@EPSILON F (NumF L))))) as (-> & _).
    destruct (_ && _); [|split; [reflexivity|discriminate]]. split; [reflexivity|]. intros _. destruct O as [O1 O2], D as [D1 D2]. unfold Vector2D_iadd, Vector2D_imul, Vector2D_of_vec, V. cbn [vx vy nadd nmul NumF].
    split; mir.
  Qed.
  Lemma sw_term e e' : rl (fst e) (fst e') /\ rl (snd e) (snd e') -> mir true (@edge_term F (NumF L) e) (@edge_term F (NumF L) e').
  Proof. intros [[] []]. unfold edge_term. cbn [nsub nmul NumF]. apply (sub_sw false); first [now apply (mul_sw false false)|now apply (mir_mul false false)]. Qed.
  Lemma sw_poly_area vs ws : Forall2 rl vs ws -> mir true (@Polygon2D_double_signed_area F (NumF L) vs) (@Polygon2D_double_signed_area F (NumF L) ws).
  Proof.
    intros F2. unfold Polygon2D_double_signed_area. assert (Z : mir true (@nlit F (NumF L) 0 1) (@nlit F (NumF L) 0 1)) by (right; split; exists false; reflexivity).
    assert (G : forall es es', Forall2 (fun p q => rl (fst p) (fst q) /\ rl (snd p) (snd q)) es es' -> forall z z', mir true z z' -> mir true (fold_left (fun s e => @nadd F (NumF L) s (@edge_term F (NumF L) e)) es z) (fold_left (fun s e => @nadd F (NumF L) s (@edge_term F (NumF L) e)) es' z')).
    { intros es es' E. induction E as [|e e' es es' H E IH]; intros z z' M; [exact M|]. cbn [fold_left]. apply IH. cbn [nadd NumF]. apply mir_add; [exact M|now apply sw_term]. }
    destruct F2 as [|v w vs ws H F2]; [exact Z|]. destruct F2 as [|v1 w1 vs ws H1 F2]; [exact Z|]. destruct F2 as [|v2 w2 vs ws H2 F2]; [exact Z|].
    apply G; [|exact Z]. apply (P_UnitF.pairs_rel rl). repeat (constructor; [assumption|]). exact F2.
  Qed.
  (** distances through pow *)
  Lemma same_refl {A} (x : res A) : same x x. Proof. now destruct x. Qed.
  Lemma same_bind {A B} (x y : res A) (f g : A -> res B) : same x y -> (forall a, same (f a) (g a)) -> same (bind x f) (bind y g).
  Proof. intros S H. destruct x, y; cbn [same bind] in *; try contradiction; [subst; apply H|exact I]. Qed.
  Hypothesis PE : pow_even L.
  Lemma sw_dist2 a b a' b' : rl a a' -> rl b b' -> same (@Vector2D_dist2 F (NumF L) a b) (@Vector2D_dist2 F (NumF L) a' b').
  Proof.
    intros A B. destruct (sw_sub _ _ _ _ A B) as [X Y]. unfold Vector2D_dist2. cbn [Vector2D_sub V vx vy] in X, Y. rewrite (pow_m L PE _ _ _ X), (pow_m L PE _ _ _ Y).
    destruct (npowi _ 2) as [p|]; destruct (npowi _ 2) as [q|]; cbn [bind same]; auto. apply Bplus_comm.
  Qed.
  Lemma sw_dist a b a' b' : rl a a' -> rl b b' -> same (@Vector2D_dist F (NumF L) a b) (@Vector2D_dist F (NumF L) a' b').
  Proof. intros A B. unfold Vector2D_dist. apply same_bind; [now apply sw_dist2|intros; apply same_refl]. Qed.
  Lemma sw_seg_dist s s' p p' : sl s s' -> rl p p' -> same (@Segment2D_dist_point F (NumF L) s p) (@Segment2D_dist_point F (NumF L) s' p').
  Proof.
    intros [O T] P. unfold Segment2D_dist_point, Segment2D_length. apply same_bind; [now apply sw_dist|]. intros l. cbn [nabs nleb neqb nmul NumF].
    destruct (Beqb l _); [now apply sw_dist|]. pose proof (sw_inner _ _ _ _ (sw_sub _ _ _ _ T O) (sw_sub _ _ _ _ P O)) as IP.
    destruct (mir_cmp0 L _ _ _ IP) as (_ & _ & _ & -> & _). destruct (mir_cmp _ _ _ _ _ IP (mir_refl (Bmult mode_NE l l))) as (_ & -> & _).
    destruct (_ && _); [rewrite (abs_div L true _ _ l (sw_area _ _ _ _ _ _ O T P)); apply same_refl|].
    apply same_bind; [now apply sw_dist2|]. intros x. apply same_bind; [now apply sw_dist2|]. intros y. apply same_refl.
  Qed.
  Lemma sw_far s s' p p' : sl s s' -> rl p p' -> same (@Segment2D_farthest_dist F (NumF L) s p) (@Segment2D_farthest_dist F (NumF L) s' p').
  Proof. intros [O T] P. unfold Segment2D_farthest_dist. apply same_bind; [now apply sw_dist2|]. intros x. apply same_bind; [now apply sw_dist2|]. intros y. apply same_refl. Qed.
  Lemma sw_in_circle p a b c p' a' b' c' : rl p p' -> rl a a' -> rl b b' -> rl c c' -> same (@Circle2D_circum_circle_contains F (NumF L) p a b c) (@Circle2D_circum_circle_contains F (NumF L) p' a' b' c').
  Proof.
    intros P A B C. pose proof A as [A1 A2]. pose proof B as [B1 B2]. pose proof C as [C1 C2]. unfold Circle2D_circum_circle_contains. cbn [nltb nabs nmul nsub nadd NumF].
    assert (AV : forall u v u' v', rl u u' -> rl v v' -> mir false (Bplus mode_NE (Bmult mode_NE (Bminus mode_NE (vx v) (vx u)) (Bplus mode_NE (vx u) (vx v))) (Bmult mode_NE (Bminus mode_NE (vy v) (vy u)) (Bplus mode_NE (vy u) (vy v))))
      (Bplus mode_NE (Bmult mode_NE (Bminus mode_NE (vx v') (vx u')) (Bplus mode_NE (vx u') (vx v'))) (Bmult mode_NE (Bminus mode_NE (vy v') (vy u')) (Bplus mode_NE (vy u') (vy v'))))) by (intros u v u' v' [U1 U2] [V1 V2]; apply add_sw; mir).
    pose proof (AV _ _ _ _ A B) as M1. pose proof (AV _ _ _ _ A C) as M2. clear AV.
    set (ar := Bmult _ (@nlit F (NumF L) 2 1) _). set (ar' := Bmult _ (@nlit F (NumF L) 2 1) _).
    assert (O : mir true ar ar') by (unfold ar, ar'; apply (mir_mul false true); [apply mir_refl|]; apply (sub_sw false); mir). rewrite (mir_abs _ _ _ O). destruct (Bltb _ _); [reflexivity|].
    assert (N : forall x y : F, mir true (Bminus mode_NE x y) (Bminus mode_NE y x)) by (intros x y; apply (sub_sw false); apply mir_refl).
    match goal with |- same (bind (ndiv ?x _) (fun _ => bind (ndiv ?y _) _)) (bind (ndiv ?x' _) (fun _ => bind (ndiv ?y' _) _)) => assert (X : mir true x y') by (apply (sub_sw false); mir); assert (Y : mir true y x') by (apply (sub_sw false); mir); set (x0 := x) in *; set (x0' := x') in *; set (y0 := y) in *; set (y0' := y') in * end.
    pose proof (mir_div L _ _ _ _ _ _ X O) as QX. pose proof (mir_div L _ _ _ _ _ _ Y O) as QY. cbn [xorb] in QX, QY.
    destruct (ndiv x0 ar) as [u|e], (ndiv y0' ar') as [u'|e']; cbn [alike] in QX; try contradiction; cbn [bind]; [|destruct (ndiv x0' ar'); exact I].
    destruct (ndiv y0 ar) as [w|e], (ndiv x0' ar') as [w'|e']; cbn [alike] in QY; try contradiction; cbn [bind]; [|exact I].
    assert (CC : rl (V u w) (V w' u')) by (split; assumption).
    apply same_bind; [now apply sw_dist2|]. intros d. apply same_bind; [now apply sw_dist2|]. intros d0. apply same_refl.
  Qed.
End Swap.
Lemma swap_m v : vsw v (swap v). Proof. split; apply mir_refl. Qed.
Lemma swaps_m vs : Forall2 vsw vs (map swap vs). Proof. induction vs; constructor; [apply swap_m|assumption]. Qed.

(** ** C201 *)
Local Notation seg2 a b := (Segment2D_of_points a b).
Local Notation lin L a b := (@Line2D_of_points F (NumF L) a b).
(** Vectors and areas. *)
Theorem C201_measures_F : forall (L : libm) (a b c : vec F) (k : F),
  let a' := swap a in let b' := swap b in let c' := swap c in
  alike swapped (@Vector2D_truediv F (NumF L) a k) (@Vector2D_truediv F (NumF L) a' k) /\
  alike swapped (@Vector2D_set_length F (NumF L) a k) (@Vector2D_set_length F (NumF L) a' k) /\
  mir false (@Vector2D_inner_product F (NumF L) a b) (@Vector2D_inner_product F (NumF L) a' b') /\
  mir true (@Vector2D_outer_product F (NumF L) a b) (@Vector2D_outer_product F (NumF L) a' b') /\
  @Vector2D_r2 F (NumF L) a' = @Vector2D_r2 F (NumF L) a /\
  @Vector2D_r F (NumF L) a' = @Vector2D_r F (NumF L) a /\
  mir true (@double_signed_area_st F (NumF L) a b c) (@double_signed_area_st F (NumF L) a' b' c') /\
  @Triangle2D_area F (NumF L) (mkTri a' b' c') = @Triangle2D_area F (NumF L) (mkTri a b c).
Proof.
  intros L a b c k a' b' c'. pose proof (swap_m a) as A. pose proof (swap_m b) as B. pose proof (swap_m c) as C. fold a' in A. fold b' in B. fold c' in C. split.
  { pose proof (sw_truediv L a a' k k A (mir_refl k)) as T. destruct (Vector2D_truediv a k), (Vector2D_truediv a' k); try contradiction; [|exact T]. destruct T as (V1 & V2 & T). split; [congruence|intros _; exact T]. }
  split. { pose proof (sw_set_length L a a' k A eq_refl) as T. destruct (Vector2D_set_length a k), (Vector2D_set_length a' k); try contradiction; [|exact T]. destruct T as [V T]. split; [exact V|intros _; exact T]. }
  split; [now apply sw_inner|]. split; [now apply sw_outer|]. split; [now apply sw_r2|]. split; [now apply sw_r|]. split; [now apply sw_area|now apply sw_tri_area].
Qed.
(** Tests: the same answer. *)
Theorem C201_tests_F : forall (L : libm) (a b c d : vec F),
  let a' := swap a in let b' := swap b in let c' := swap c in let d' := swap d in
  @Vector2D_eq F (NumF L) a' b' = @Vector2D_eq F (NumF L) a b /\
  @Vector2D_equals_weakly F (NumF L) a' b' = @Vector2D_equals_weakly F (NumF L) a b /\
  @Triangle2D_contains F (NumF L) (mkTri a' b' c') d' = @Triangle2D_contains F (NumF L) (mkTri a b c) d /\
  @Segment2D_contains F (NumF L) (seg2 a' b') c' = @Segment2D_contains F (NumF L) (seg2 a b) c /\
  @Segment2D_exist_intersection_except_endpoint F (NumF L) (seg2 a' b') (seg2 c' d') = @Segment2D_exist_intersection_except_endpoint F (NumF L) (seg2 a b) (seg2 c d) /\
  @Line2D_is_parallel F (NumF L) (lin L a' b') (lin L c' d') = @Line2D_is_parallel F (NumF L) (lin L a b) (lin L c d).
Proof.
  intros L a b c d a' b' c' d'. pose proof (swap_m a) as A. pose proof (swap_m b) as B. pose proof (swap_m c) as C. pose proof (swap_m d) as D. fold a' in A. fold b' in B. fold c' in C. fold d' in D.
  split; [now apply sw_eq|]. split; [now apply sw_weakly|]. split; [now apply (sw_tri L)|]. split; [now apply sw_seg_contains|]. split; [now apply sw_except|]. apply (sw_parallel L true true); now apply sw_line.
Qed.
(** Points that are computed. *)
Theorem C201_points_F : forall (L : libm) (a b c d : vec F) (allow : bool),
  let a' := swap a in let b' := swap b in let c' := swap c in let d' := swap d in
  @Line2D_dist F (NumF L) (lin L a' b') c' = @Line2D_dist F (NumF L) (lin L a b) c /\
  alike swapped (@Line2D_intersection F (NumF L) (lin L a b) (lin L c d)) (@Line2D_intersection F (NumF L) (lin L a' b') (lin L c' d')) /\
  alike swapped (@Line2D_projection F (NumF L) (lin L a b) c) (@Line2D_projection F (NumF L) (lin L a' b') c') /\
  alike swapped (@Segment2D_intersection_seg F (NumF L) (seg2 a b) (seg2 c d) allow) (@Segment2D_intersection_seg F (NumF L) (seg2 a' b') (seg2 c' d') allow) /\
  alike swapped (@Segment2D_nearest_point F (NumF L) (seg2 a b) c) (@Segment2D_nearest_point F (NumF L) (seg2 a' b') c') /\
  alike swapped (@Segment2D_projection F (NumF L) (seg2 a b) c) (@Segment2D_projection F (NumF L) (seg2 a' b') c').
Proof.
  intros L a b c d allow a' b' c' d'. pose proof (swap_m a) as A. pose proof (swap_m b) as B. pose proof (swap_m c) as C. pose proof (swap_m d) as D. fold a' in A. fold b' in B. fold c' in C. fold d' in D.
  pose proof (sw_line L _ _ _ _ A B) as AB. pose proof (sw_line L _ _ _ _ C D) as CD.
  split; [now apply (sw_line_dist L true)|]. split; [now apply (sw_inter L true true)|]. split; [apply (sw_inter L true (negb true)); [exact AB|now apply sw_perp]|].
  split; [apply sw_seg_inter; split; assumption|]. split; [apply sw_nearest; try reflexivity; auto|]. apply sw_proj; try reflexivity; auto.
Qed.
(** Distances through pow, if pow(-x, 2) = pow(x, 2). *)
Theorem C201_distances_F : forall (L : libm) (a b c : vec F) (r : F), pow_even L ->
  let a' := swap a in let b' := swap b in let c' := swap c in
  same (@Vector2D_dist F (NumF L) a b) (@Vector2D_dist F (NumF L) a' b') /\
  same (@Circle2D_contains F (NumF L) (mkCircle a r) b) (@Circle2D_contains F (NumF L) (mkCircle a' r) b') /\
  same (@Segment2D_dist_point F (NumF L) (seg2 a b) c) (@Segment2D_dist_point F (NumF L) (seg2 a' b') c') /\
  same (@Segment2D_farthest_dist F (NumF L) (seg2 a b) c) (@Segment2D_farthest_dist F (NumF L) (seg2 a' b') c').
Proof.
  intros L a b c r PE a' b' c'. pose proof (swap_m a) as A. pose proof (swap_m b) as B. pose proof (swap_m c) as C. fold a' in A. fold b' in B. fold c' in C.
  split; [now apply sw_dist|]. split; [unfold Circle2D_contains; cbn [c_center c_radius]; apply same_bind; [now apply sw_dist2|intros; apply same_refl]|]. split; [now apply sw_seg_dist|now apply sw_far].
Qed.
(** Orthocentre, and whether a point is in the circle through three points. *)
Theorem C201_centres_F : forall (L : libm) (a b c p : vec F),
  let a' := swap a in let b' := swap b in let c' := swap c in let p' := swap p in
  alike swapped (@Triangle2D_orthocenter F (NumF L) (mkTri a b c)) (@Triangle2D_orthocenter F (NumF L) (mkTri a' b' c')) /\
  (pow_even L -> same (@Circle2D_circum_circle_contains F (NumF L) p a b c) (@Circle2D_circum_circle_contains F (NumF L) p' a' b' c')).
Proof.
  intros L a b c p a' b' c' p'. pose proof (swap_m a) as A. pose proof (swap_m b) as B. pose proof (swap_m c) as C. pose proof (swap_m p) as P. fold a' in A. fold b' in B. fold c' in C. fold p' in P.
  split; [|intros PE; now apply sw_in_circle]. unfold Triangle2D_orthocenter, tri_orthocenter. cbn [t_a t_b t_c]. apply (sw_inter L (negb true) (negb true)); apply sw_perp; try assumption; now apply sw_line.
Qed.
(** Polygons: the same area, the opposite orientation. *)
Theorem C201_polygon_F : forall (L : libm) (vs : list (vec F)), let ws := map swap vs in
  @Polygon2D_area F (NumF L) ws = @Polygon2D_area F (NumF L) vs /\
  @Polygon2D_is_counter_clockwise F (NumF L) ws = @Polygon2D_is_clockwise F (NumF L) vs /\
  @Polygon2D_is_clockwise F (NumF L) ws = @Polygon2D_is_counter_clockwise F (NumF L) vs.
Proof.
  intros L vs ws. pose proof (sw_poly_area L vs ws (swaps_m vs)) as A. split; [|split].
  - unfold Polygon2D_area. cbn [nabs nmul NumF]. apply (mir_abs true). apply (mir_mul true false); [exact A|apply mir_refl].
  - unfold Polygon2D_is_counter_clockwise, Polygon2D_is_clockwise. cbn [nltb NumF]. now destruct (mir_cmp0 L _ _ _ A) as (_ & -> & _).
  - unfold Polygon2D_is_counter_clockwise, Polygon2D_is_clockwise. cbn [nltb NumF]. now destruct (mir_cmp0 L _ _ _ A) as (-> & _).
Qed.
(** Not so for on_segment and exist_intersection, which compare x only once the area has rounded to 0: where products underflow, a point off the segment is reported on it, and not on it with the axes swapped. *)
Definition tiny (k : Z) : F := Bldexp mode_NE (F_of_Z k) (-700).
Theorem C201_on_segment_refuted_F : forall L : libm,
  ~ (forall a b c : vec F, @Segment2D_on_segment F (NumF L) (seg2 (swap a) (swap b)) (swap c) = @Segment2D_on_segment F (NumF L) (seg2 a b) c) /\
  ~ (forall a b c d : vec F, @Segment2D_exist_intersection_seg F (NumF L) (seg2 (swap a) (swap b)) (seg2 (swap c) (swap d)) = @Segment2D_exist_intersection_seg F (NumF L) (seg2 a b) (seg2 c d)).
Proof.
  intros L. pose (z := fun x y => mkVec (tiny x) (tiny y) true). split; intros H.
  - specialize (H (z 0%Z 0%Z) (z 4%Z 1%Z) (z 2%Z 4%Z)). vm_compute in H. discriminate.
  - specialize (H (z 0%Z 0%Z) (z 4%Z 1%Z) (z 2%Z 4%Z) (z 2%Z 4%Z)). vm_compute in H. discriminate.
Qed.
(** The hypothesis on pow is met, swapping moves points, and swapped lines do meet. *)
Example C201_nonvacuous : forall L : libm, let z := fun x y => mkVec (F_of_Z x) (F_of_Z y) true in
  pow_even libm_sq /\ swap (z 1%Z 2%Z) = z 2%Z 1%Z /\
  match @Line2D_intersection F (NumF L) (lin L (swap (z 0%Z 0%Z)) (swap (z 2%Z 4%Z))) (lin L (swap (z 0%Z 4%Z)) (swap (z 2%Z 0%Z))) with Ok p => v_valid p && Beqb (vx p) (F_of_Z 2) && Beqb (vy p) (F_of_Z 1) | Raise _ => false end = true /\
  @Polygon2D_is_clockwise F (NumF L) (map swap [z 0%Z 0%Z; z 2%Z 0%Z; z 2%Z 2%Z]) = true.
Proof. intros L z. split; [apply C134_nonvacuous|]. split; [reflexivity|]. split; vm_compute; reflexivity. Qed.
