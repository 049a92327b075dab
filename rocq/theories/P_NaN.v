(** * P_NaN: NaN and infinite coordinates (C198) *)
From Coq Require Import ZArith List Bool String Reals Lra Lia.
From Flocq Require Import Core BinarySingleNaN.
From Verif Require Import Base Types NumR NumF R_Tac Spec Abs M_Angle M_Vector M_Line M_Ray M_Triangle M_Segment M_Circle M_Sector M_Rect M_Polygon M_PolyF L_Float P_Float P_VecF P_SafeF.
Import ListNotations.
Local Open Scope R_scope.

Definition has_nan (v : vec F) : Prop := vx v = B754_nan \/ vy v = B754_nan.
(** What is asked of the C library: the square of NaN is NaN. *)
Definition pow_nan (L : libm) : Prop := lm_pow L B754_nan (F_of_Z 2) = B754_nan.

(** ** NaN in, NaN out *)
Lemma plus_nan_l m (y : F) : Bplus m B754_nan y = B754_nan. Proof. now destruct y. Qed.
Lemma plus_nan_r m (x : F) : Bplus m x B754_nan = B754_nan. Proof. now destruct x. Qed.
Lemma minus_nan_l m (y : F) : Bminus m B754_nan y = B754_nan. Proof. now destruct y. Qed.
Lemma minus_nan_r m (x : F) : Bminus m x B754_nan = B754_nan. Proof. now destruct x. Qed.
Lemma mult_nan_l m (y : F) : Bmult m B754_nan y = B754_nan. Proof. now destruct y. Qed.
Lemma mult_nan_r m (x : F) : Bmult m x B754_nan = B754_nan. Proof. now destruct x. Qed.
Lemma ltb_nan_l (y : F) : Bltb B754_nan y = false. Proof. now destruct y as [[]|[]| |[] ]. Qed.
Lemma ltb_nan_r (x : F) : Bltb x B754_nan = false. Proof. now destruct x as [[]|[]| |[] ]. Qed.
Lemma leb_nan_l (y : F) : Bleb B754_nan y = false. Proof. now destruct y as [[]|[]| |[] ]. Qed.
Lemma leb_nan_r (x : F) : Bleb x B754_nan = false. Proof. now destruct x as [[]|[]| |[] ]. Qed.
Lemma eqb_nan_l (y : F) : Beqb B754_nan y = false. Proof. now destruct y as [[]|[]| |[] ]. Qed.
Lemma eqb_nan_r (x : F) : Beqb x B754_nan = false. Proof. now destruct x as [[]|[]| |[] ]. Qed.
Lemma abs_nan : Babs (B754_nan : F) = B754_nan. Proof. reflexivity. Qed.
Ltac fops := cbn [nadd nsub nmul nneg nabs nltb nleb neqb NumF vx vy V Vector2D_of_vec v_valid] in *.
Ltac nans := repeat (rewrite ?plus_nan_l, ?plus_nan_r, ?minus_nan_l, ?minus_nan_r, ?mult_nan_l, ?mult_nan_r, ?abs_nan, ?ltb_nan_l, ?ltb_nan_r, ?leb_nan_l, ?leb_nan_r, ?eqb_nan_l, ?eqb_nan_r, ?andb_false_r, ?andb_false_l, ?orb_false_r, ?orb_false_l; cbn [andb orb negb]).

Section Lemmas.
  Variable L : libm.
  Lemma eq_nan p q : has_nan p \/ has_nan q -> @Vector2D_eq F (NumF L) p q = false /\ @Vector2D_equals F (NumF L) p q = false /\ @Vector2D_equals_weakly F (NumF L) p q = false.
  Proof. unfold Vector2D_eq, Vector2D_equals, Vector2D_equals_weakly. fops. intros [[E|E]|[E|E]]; rewrite E; nans; auto. Qed.
  Lemma rect_nan r p : has_nan p \/ has_nan (r_top_left r) \/ sz_length (r_size r) = B754_nan \/ sz_width (r_size r) = B754_nan -> @Rect2D_contains F (NumF L) r p = false.
  Proof. unfold Rect2D_contains, Rect2D_right, Rect2D_bottom, Rect2D_left, Rect2D_top. fops. intros [[E|E]|[[E|E]|[E|E]]]; rewrite E; nans; reflexivity. Qed.
  Lemma area_nan a b c : has_nan a \/ has_nan b \/ has_nan c -> @double_signed_area_st F (NumF L) a b c = B754_nan.
  Proof. unfold double_signed_area_st. fops. intros [[E|E]|[[E|E]|[E|E]]]; rewrite E; nans; reflexivity. Qed.
  Lemma triangle_nan a b c p : has_nan p \/ has_nan a \/ has_nan b \/ has_nan c -> @tri_contains F (NumF L) a b c p = false.
  Proof. unfold tri_contains, Vector2D_outer_product, Vector2D_sub. fops. intros [[E|E]|[[E|E]|[[E|E]|[E|E]]]]; rewrite E; nans; reflexivity. Qed.
  Lemma segment_nan s p : has_nan p \/ has_nan (s_origin s) \/ has_nan (s_terminal s) -> @Segment2D_contains F (NumF L) s p = false /\ @Segment2D_on_segment F (NumF L) s p = false.
  Proof.
    intros H. split.
    - unfold Segment2D_contains. fops. destruct H as [[E|E]|[[E|E]|[E|E]]]; rewrite E; nans; reflexivity.
    - unfold Segment2D_on_segment. rewrite area_nan by tauto. fops. now nans.
  Qed.
  Lemma weakly_nan s p : has_nan p -> @Segment2D_on_segment_weakly F (NumF L) s p = Ok false.
  Proof.
    intros H. assert (Q : forall q, @Vector2D_equals_weakly F (NumF L) p q = false) by (intros q; apply eq_nan; now left).
    unfold Segment2D_on_segment_weakly. destruct (ret_projection L s p) as [q ->]. cbn [bind]. now rewrite Q, andb_false_r.
  Qed.
  Lemma sector_nan s p : has_nan p \/ has_nan (sec_center s) \/ sec_min_r s = B754_nan \/ sec_max_r s = B754_nan -> @Sector2D_contains F (NumF L) s p = Ok false.
  Proof. unfold Sector2D_contains, Vector2D_r2, Vector2D_sub. fops. intros [[E|E]|[[E|E]|[E|E]]]; rewrite E; nans; reflexivity. Qed.
  Lemma dist2_nan a b d : pow_nan L -> has_nan a \/ has_nan b -> @Vector2D_dist2 F (NumF L) a b = Ok d -> d = B754_nan.
  Proof.
    intros P H. unfold Vector2D_dist2. fops. assert (PN : @npowi F (NumF L) B754_nan 2 = Ok B754_nan) by (cbn [npowi NumF]; unfold F_powi; change (is_finite (F_of_Z 2)) with true; now rewrite P).
    destruct (@npowi F (NumF L) (Bminus mode_NE (vx a) (vx b)) 2) as [x|e] eqn:X; [|discriminate]. cbn [bind]. destruct (@npowi F (NumF L) (Bminus mode_NE (vy a) (vy b)) 2) as [y|e] eqn:Y; [|discriminate]. cbn [bind]. intros [= <-].
    destruct H as [[E|E]|[E|E]]; rewrite E in *; rewrite ?minus_nan_l, ?minus_nan_r in *; rewrite PN in *; [injection X as <-|injection Y as <-|injection X as <-|injection Y as <-]; now nans.
  Qed.
  Lemma circle_nan c p : pow_nan L -> has_nan p \/ has_nan (c_center c) \/ c_radius c = B754_nan -> @Circle2D_contains F (NumF L) c p <> Ok true.
  Proof.
    intros P H. unfold Circle2D_contains. destruct (Vector2D_dist2 _ _) as [d|e] eqn:D; cbn [bind]; [|discriminate]. fops. destruct H as [H|[H|E]].
    - rewrite (dist2_nan _ _ _ P (or_intror H) D). now nans.
    - rewrite (dist2_nan _ _ _ P (or_introl H) D). now nans.
    - rewrite E. now nans.
  Qed.

  (** ** Running minima and maxima *)
  Lemma less_nan m x : m <> B754_nan -> less m x <> B754_nan.
  Proof. unfold less. intros M. destruct (Bltb x m) eqn:E; [|exact M]. intros ->. now rewrite ltb_nan_l in E. Qed.
  Lemma more_nan m x : m <> B754_nan -> more m x <> B754_nan.
  Proof. unfold more. intros M. destruct (Bltb m x) eqn:E; [|exact M]. intros ->. now rewrite ltb_nan_r in E. Qed.
End Lemmas.


(** ** Extremes *)
Lemma not_nan (x : F) : x <> B754_nan -> is_nan x = false. Proof. now destruct x. Qed.
Lemma leb_key (x y : F) : x <> B754_nan -> y <> B754_nan -> Bleb x y = true <-> key x <= key y.
Proof. intros X Y. rewrite key_leb by now apply not_nan. destruct (Rle_bool_spec (key x) (key y)); split; (easy || lra). Qed.
Lemma ltb_key (x y : F) : x <> B754_nan -> y <> B754_nan -> Bltb x y = true <-> key x < key y.
Proof. intros X Y. rewrite key_ltb by now apply not_nan. destruct (Rlt_bool_spec (key x) (key y)); split; (easy || lra). Qed.
Lemma key_top (x : F) : - bpow radix2 1024 <= key x <= bpow radix2 1024.
Proof. pose proof (bpow_gt_0 radix2 1024). destruct x as [s|[]| |s m e W]; try (cbn [key B2R]; lra). destruct (key_fin (B754_finite s m e W) eq_refl). lra. Qed.
Lemma key_pinf (x : F) : x <> B754_nan -> bpow radix2 1024 <= key x -> x = pinf.
Proof. intros X H. pose proof (bpow_gt_0 radix2 1024). destruct x as [s|[]| |s m e W]; try (exfalso; cbn [key B2R] in H; lra); try easy. destruct (key_fin (B754_finite s m e W) eq_refl) as [K B]. exfalso. lra. Qed.
Lemma key_minf (x : F) : x <> B754_nan -> key x <= - bpow radix2 1024 -> x = minf.
Proof. intros X H. pose proof (bpow_gt_0 radix2 1024). destruct x as [s|[]| |s m e W]; try (exfalso; cbn [key B2R] in H; lra); try easy. destruct (key_fin (B754_finite s m e W) eq_refl) as [K B]. exfalso. lra. Qed.

(** the least (greatest) of the numbers in a list, NaN apart; +inf (-inf) when there is none *)
Definition least (xs : list F) (m : F) : Prop :=
  (forall x, In x xs -> x <> B754_nan -> Bleb m x = true) /\ (m <> B754_nan /\ In m xs \/ m = pinf /\ forall x, In x xs -> x = B754_nan).
Definition greatest (xs : list F) (m : F) : Prop :=
  (forall x, In x xs -> x <> B754_nan -> Bleb x m = true) /\ (m <> B754_nan /\ In m xs \/ m = minf /\ forall x, In x xs -> x = B754_nan).

Lemma less_spec m x : m <> B754_nan -> less m x <> B754_nan /\ key (less m x) <= key m /\ (x <> B754_nan -> key (less m x) <= key x) /\ (less m x = m \/ less m x = x).
Proof.
  intros M. split; [now apply less_nan|]. unfold less. destruct (Bltb x m) eqn:E.
  - assert (X : x <> B754_nan) by (intros ->; now rewrite ltb_nan_l in E). apply ltb_key in E; [|assumption..]. repeat split; auto; lra.
  - split; [lra|]. split; [|now left]. intros X. destruct (Rle_or_lt (key m) (key x)); [assumption|]. apply ltb_key in H; [congruence|assumption..].
Qed.
Lemma more_spec m x : m <> B754_nan -> more m x <> B754_nan /\ key m <= key (more m x) /\ (x <> B754_nan -> key x <= key (more m x)) /\ (more m x = m \/ more m x = x).
Proof.
  intros M. split; [now apply more_nan|]. unfold more. destruct (Bltb m x) eqn:E.
  - assert (X : x <> B754_nan) by (intros ->; now rewrite ltb_nan_r in E). apply ltb_key in E; [|assumption..]. repeat split; auto; lra.
  - split; [lra|]. split; [|now left]. intros X. destruct (Rle_or_lt (key x) (key m)); [assumption|]. apply ltb_key in H; [congruence|assumption..].
Qed.
Lemma fold_less xs : forall m, m <> B754_nan -> let r := fold_left less xs m in r <> B754_nan /\ key r <= key m /\ (forall x, In x xs -> x <> B754_nan -> key r <= key x) /\ (r = m \/ In r xs).
Proof.
  induction xs as [|x xs IH]; intros m M; cbn [fold_left]; cbv zeta.
  - repeat split; auto; try lra. intros x [].
  - destruct (less_spec m x M) as (N & Lm & Lx & C). destruct (IH _ N) as (I1 & I2 & I3 & I4). split; [assumption|]. split; [lra|]. split.
    + intros y [<-|Y] NY; [specialize (Lx NY); lra|now apply I3].
    + destruct I4 as [->|I4]; [|now right; right]. destruct C as [->| ->]; [now left|right; now left].
Qed.
Lemma fold_more xs : forall m, m <> B754_nan -> let r := fold_left more xs m in r <> B754_nan /\ key m <= key r /\ (forall x, In x xs -> x <> B754_nan -> key x <= key r) /\ (r = m \/ In r xs).
Proof.
  induction xs as [|x xs IH]; intros m M; cbn [fold_left]; cbv zeta.
  - repeat split; auto; try lra. intros x [].
  - destruct (more_spec m x M) as (N & Lm & Lx & C). destruct (IH _ N) as (I1 & I2 & I3 & I4). split; [assumption|]. split; [lra|]. split.
    + intros y [<-|Y] NY; [specialize (Lx NY); lra|now apply I3].
    + destruct I4 as [->|I4]; [|now right; right]. destruct C as [->| ->]; [now left|right; now left].
Qed.
Lemma F_dec (x : F) : {x = B754_nan} + {x <> B754_nan}.
Proof. destruct x; [right|right|left|right]; easy. Qed.
Lemma pinf_num : pinf <> B754_nan. Proof. discriminate. Qed.
Lemma minf_num : minf <> B754_nan. Proof. discriminate. Qed.
Lemma nan_or_not (xs : list F) : (forall x, In x xs -> x = B754_nan) \/ exists x, In x xs /\ x <> B754_nan.
Proof. induction xs as [|x xs [IH|(y & I & N)]]; [left; intros x []| |right; exists y; split; [now right|assumption]]. destruct (F_dec x) as [E|E]; [left; intros y [<-|I]; auto|right; exists x; split; [now left|assumption]]. Qed.
Lemma fold_least xs : least xs (fold_left less xs pinf).
Proof.
  destruct (fold_less xs pinf pinf_num) as (N & _ & Lx & C). split; [intros x I X; apply leb_key; auto|]. destruct C as [C|C]; [|now left].
  rewrite C. destruct (nan_or_not xs) as [A|(x & I & X)]; [now right|left]. split; [discriminate|]. specialize (Lx x I X). rewrite C in Lx. apply key_pinf in Lx; [now subst x|assumption].
Qed.
Lemma fold_greatest xs : greatest xs (fold_left more xs minf).
Proof.
  destruct (fold_more xs minf minf_num) as (N & _ & Lx & C). split; [intros x I X; apply leb_key; auto|]. destruct C as [C|C]; [|now left].
  rewrite C. destruct (nan_or_not xs) as [A|(x & I & X)]; [now right|left]. split; [discriminate|]. specialize (Lx x I X). rewrite C in Lx. apply key_minf in Lx; [now subst x|assumption].
Qed.

(** ** Theorems *)
(** A point with a NaN coordinate is nowhere. *)
Theorem C198_nan_point_F : forall (L : libm) (p : vec F), has_nan p ->
  (forall q, @Vector2D_eq F (NumF L) p q = false /\ @Vector2D_equals F (NumF L) p q = false /\ @Vector2D_equals_weakly F (NumF L) p q = false /\
     @Vector2D_eq F (NumF L) q p = false /\ @Vector2D_equals F (NumF L) q p = false /\ @Vector2D_equals_weakly F (NumF L) q p = false) /\
  (forall r, @Rect2D_contains F (NumF L) r p = false) /\
  (forall a b c, @tri_contains F (NumF L) a b c p = false) /\
  (forall s, @Segment2D_contains F (NumF L) s p = false /\ @Segment2D_on_segment F (NumF L) s p = false /\ @Segment2D_on_segment_weakly F (NumF L) s p = Ok false) /\
  (forall s, @Sector2D_contains F (NumF L) s p = Ok false) /\
  (forall vs allow, poly_contains L vs p allow = Ok false) /\
  (pow_nan L -> forall c, @Circle2D_contains F (NumF L) c p <> Ok true).
Proof.
  intros L p H. split; [|split; [|split; [|split; [|split; [|split]]]]].
  - intros q. destruct (eq_nan L p q (or_introl H)) as (A & B & C). destruct (eq_nan L q p (or_intror H)) as (D & E & G). auto 6.
  - intros r. apply rect_nan. now left.
  - intros a b c. apply triangle_nan. now left.
  - intros s. destruct (segment_nan L s p (or_introl H)) as [A B]. split; [exact A|]. split; [exact B|]. now apply weakly_nan.
  - intros s. apply sector_nan. now left.
  - intros [|v [|w vs]] allow; [reflexivity| |].
    + cbn [poly_contains]. destruct (eq_nan L v p (or_intror H)) as (-> & _). now rewrite andb_false_r.
    + unfold poly_contains, bounding_box. cbn [bind]. rewrite rect_nan by now left. reflexivity.
  - intros P c. apply circle_nan; [assumption|now left].
Qed.

(** A shape with a NaN in its data contains nothing. *)
Theorem C198_nan_shape_F : forall (L : libm) (p : vec F),
  (forall r, has_nan (r_top_left r) \/ sz_length (r_size r) = B754_nan \/ sz_width (r_size r) = B754_nan -> @Rect2D_contains F (NumF L) r p = false) /\
  (forall a b c, has_nan a \/ has_nan b \/ has_nan c -> @tri_contains F (NumF L) a b c p = false) /\
  (forall s, has_nan (s_origin s) \/ has_nan (s_terminal s) -> @Segment2D_contains F (NumF L) s p = false /\ @Segment2D_on_segment F (NumF L) s p = false) /\
  (forall s, has_nan (sec_center s) \/ sec_min_r s = B754_nan \/ sec_max_r s = B754_nan -> @Sector2D_contains F (NumF L) s p = Ok false) /\
  (pow_nan L -> forall c, has_nan (c_center c) \/ c_radius c = B754_nan -> @Circle2D_contains F (NumF L) c p <> Ok true).
Proof.
  intros L p. split; [|split; [|split; [|split]]].
  - intros r H. apply rect_nan. now right.
  - intros a b c H. apply triangle_nan. now right.
  - intros s H. apply segment_nan. now right.
  - intros s H. apply sector_nan. now right.
  - intros P c H. apply circle_nan; [assumption|now right].
Qed.

(** ** Angles *)
Section Angles.
  Variable L : libm.
  Notation nanA := (mkAngle (B754_nan : F)).
  Lemma normal_nan : @AngleDeg_normal F (NumF L) B754_nan = Ok B754_nan.
  Proof. unfold AngleDeg_normal. fops. nans. reflexivity. Qed.
  Lemma degree_nan : @AngleDeg_degree F (NumF L) nanA = Ok B754_nan.
  Proof. unfold AngleDeg_degree, AngleDeg_of_num. cbn [a_degree]. rewrite normal_nan. reflexivity. Qed.
  Lemma le_nan_l b : @AngleDeg_is_left_equal_of F (NumF L) nanA (AA b) <> Ok true.
  Proof. unfold AngleDeg_is_left_equal_of. cbn [to_angle bind a_degree]. destruct (AngleDeg_degree b); cbn [bind]; [|discriminate]. fops. now nans. Qed.
  Lemma le_nan_r a : @AngleDeg_is_left_equal_of F (NumF L) a (AA nanA) = Ok false.
  Proof. unfold AngleDeg_is_left_equal_of. cbn [to_angle bind]. rewrite degree_nan. cbn [bind]. fops. now nans. Qed.
End Angles.
(** A NaN angle is on no side of any angle and within no range; a NaN end of a range leaves the test of the other end, a half circle. *)
Theorem C198_nan_angle_F : forall (L : libm) (a b : angle F), let n := mkAngle (B754_nan : F) in
  @AngleDeg_of_num F (NumF L) B754_nan = Ok n /\
  @AngleDeg_is_left_of F (NumF L) n (AA a) <> Ok true /\ @AngleDeg_is_left_of F (NumF L) a (AA n) <> Ok true /\
  @AngleDeg_is_right_of F (NumF L) n (AA a) <> Ok true /\ @AngleDeg_is_right_of F (NumF L) a (AA n) <> Ok true /\
  @AngleDeg_is_left_equal_of F (NumF L) n (AA a) <> Ok true /\ @AngleDeg_is_left_equal_of F (NumF L) a (AA n) <> Ok true /\
  @AngleDeg_is_right_equal_of F (NumF L) n (AA a) <> Ok true /\ @AngleDeg_is_right_equal_of F (NumF L) a (AA n) <> Ok true /\
  @AngleDeg_is_within F (NumF L) n (AA a) (AA b) <> Ok true /\
  @AngleDeg_is_within F (NumF L) a (AA b) (AA n) = @AngleDeg_is_left_equal_of F (NumF L) b (AA a).
Proof.
  intros L a b n. subst n. split; [unfold AngleDeg_of_num; rewrite normal_nan; reflexivity|].
  split; [|split; [|split; [|split; [|split; [|split; [|split; [|split; [|split]]]]]]]].
  1-4, 7-8: unfold AngleDeg_is_left_of, AngleDeg_is_right_of, AngleDeg_is_right_equal_of; cbn [to_angle bind]; rewrite degree_nan; cbn [bind]; try (destruct (AngleDeg_degree a) as [d|e]; cbn [bind]; [|discriminate]); fops; now nans.
  - apply le_nan_l.
  - rewrite le_nan_r. discriminate.
  - unfold AngleDeg_is_within. cbn [to_angle bind]. destruct (AngleDeg_is_left_equal_of a (AA b)) as [[]|e]; cbn [bind]; [| |discriminate].
    + rewrite le_nan_r. discriminate.
    + pose proof (le_nan_l L b) as H. destruct (AngleDeg_is_left_equal_of _ (AA b)) as [[]|e]; cbn [bind]; [easy| |discriminate]. rewrite le_nan_r. discriminate.
  - unfold AngleDeg_is_within. cbn [to_angle bind]. rewrite !le_nan_r. reflexivity.
Qed.

(** ** Polygons *)
(** The bounding box starts at the least of the coordinates that are not NaN and its size is the difference from the greatest. *)
Theorem C198_bounding_box_F : forall (L : libm) (vs : list (vec F)), vs <> [] ->
  exists b xl xg yl yg, bounding_box L vs = Ok b /\
    least (map (@vx F) vs) xl /\ greatest (map (@vx F) vs) xg /\ least (map (@vy F) vs) yl /\ greatest (map (@vy F) vs) yg /\
    vx (r_top_left b) = xl /\ vy (r_top_left b) = yl /\ sz_length (r_size b) = Babs (Bminus mode_NE xg xl) /\ sz_width (r_size b) = Babs (Bminus mode_NE yg yl).
Proof.
  intros L vs H. eexists _, _, _, _, _. split; [destruct vs as [|v vs]; [easy|]; reflexivity|]. cbn [r_top_left Rect2D_of_vec_size Vector2D_of_vec vx vy V r_size sz_length sz_width Size2D_init nabs NumF].
  repeat match goal with |- _ /\ _ => split end; try reflexivity; try apply fold_least; apply fold_greatest.
Qed.

(** A vertex at minus infinity: no point is contained, because the right (bottom) end of the bounding box is NaN. *)
Theorem C198_minus_infinity_F : forall (L : libm) (v w : vec F) (vs : list (vec F)) (p : vec F) (allow : bool),
  (exists u, In u (v :: w :: vs) /\ (vx u = minf \/ vy u = minf)) -> poly_contains L (v :: w :: vs) p allow = Ok false.
Proof.
  intros L v w vs p allow (u & I & E). unfold poly_contains. destruct (C198_bounding_box_F L (v :: w :: vs)) as (b & xl & xg & yl & yg & -> & LX & GX & LY & GY & B1 & B2 & B3 & B4); [discriminate|]. cbn [bind].
  assert (LOW : forall xs l g, least xs l -> greatest xs g -> In minf xs -> l = minf /\ Bplus mode_NE l (Babs (Bminus mode_NE g l)) = B754_nan).
  { intros xs l g [A C] [_ C'] M. assert (N : l <> B754_nan) by (destruct C as [[C _]|[-> _]]; [exact C|discriminate]). assert (N' : g <> B754_nan) by (destruct C' as [[C' _]|[-> _]]; [exact C'|discriminate]).
    assert (l = minf) as ->. { apply key_minf; [exact N|]. specialize (A _ M minf_num). apply leb_key in A; [exact A|exact N|discriminate]. }
    split; [reflexivity|]. clear -N'. destruct g as [s|[]| |s m e W]; reflexivity. }
  replace (@Rect2D_contains F (NumF L) b p) with false; [reflexivity|]. symmetry. unfold Rect2D_contains, Rect2D_right, Rect2D_bottom, Rect2D_left, Rect2D_top. fops. rewrite B1, B2, B3, B4.
  destruct E as [E|E]; apply (in_map (@vx F)) in I as IX; apply (in_map (@vy F)) in I as IY; rewrite E in *.
  - destruct (LOW _ _ _ LX GX IX) as [_ ->]. now nans.
  - destruct (LOW _ _ _ LY GY IY) as [_ ->]. now nans.
Qed.

(** On vertices with finite coordinates the double-level functions are those of [M_Polygon]. *)
Lemma fold_min L (proj : vec F -> F) vs : forall m, fold_left (fun m p => @upd_min F (NumF L) m (proj p)) vs (Some m) = Some (fold_left less (map proj vs) m).
Proof. induction vs as [|v vs IH]; intros m; [reflexivity|]. cbn [fold_left map]. rewrite <- IH. f_equal. unfold upd_min, less. cbn [nltb NumF]. now destruct (Bltb _ _). Qed.
Lemma fold_max L (proj : vec F -> F) vs : forall m, fold_left (fun m p => @upd_max F (NumF L) m (proj p)) vs (Some m) = Some (fold_left more (map proj vs) m).
Proof. induction vs as [|v vs IH]; intros m; [reflexivity|]. cbn [fold_left map]. rewrite <- IH. f_equal. unfold upd_max, more. cbn [nltb NumF]. now destruct (Bltb _ _). Qed.
Lemma finite_pinf (x : F) : is_finite x = true -> less pinf x = x /\ more minf x = x.
Proof. intros H. destruct x as [s|s| |s m e W]; try discriminate; [split; reflexivity|]. destruct s; split; reflexivity. Qed.
Definition fin2 (v : vec F) : Prop := is_finite (vx v) = true /\ is_finite (vy v) = true.
Lemma extents L proj v vs : is_finite (proj v) = true -> bbox_extent (v :: vs) (@upd_min F (NumF L)) proj = Some (fold_left less (map proj (v :: vs)) pinf) /\ bbox_extent (v :: vs) (@upd_max F (NumF L)) proj = Some (fold_left more (map proj (v :: vs)) minf).
Proof. intros H. destruct (finite_pinf _ H) as [A B]. unfold bbox_extent. cbn [fold_left map]. rewrite A, B. split; [apply fold_min|apply fold_max]. Qed.
Lemma box_agrees L vs : (forall v, In v vs -> fin2 v) -> bounding_box L vs = @Polygon2D_get_bounding_box F (NumF L) vs.
Proof.
  intros H. destruct vs as [|v vs]; [reflexivity|]. destruct (H v (or_introl eq_refl)) as [X Y]. unfold Polygon2D_get_bounding_box.
  destruct (extents L (@vx F) v vs X) as [-> ->]. destruct (extents L (@vy F) v vs Y) as [-> ->]. reflexivity.
Qed.
Lemma contains_agrees L vs p allow : (forall v, In v vs -> fin2 v) -> poly_contains L vs p allow = @Polygon2D_contains F (NumF L) vs p allow.
Proof. intros H. destruct vs as [|v [|w vs]]; [reflexivity..|]. unfold poly_contains, Polygon2D_contains. now rewrite box_agrees. Qed.
Definition or_pinf (m : option F) : F := match m with Some d => d | None => pinf end.
Lemma less_pinf (d : F) : d <> B754_nan -> less pinf d = d.
Proof. intros H. destruct d as [s|[]| |[] m e W]; easy. Qed.
Lemma nearest_agrees L p es : (forall a b d, In (a, b) es -> @Segment2D_dist_point F (NumF L) (Segment2D_of_points a b) p = Ok d -> d <> B754_nan) ->
  forall m, nearest L p es (or_pinf m) = bind (@dist_loop F (NumF L) p es m) (fun r => Ok (or_pinf r)).
Proof.
  induction es as [|(a, b) es IH]; intros H m; [reflexivity|]. cbn [nearest dist_loop]. destruct (Segment2D_dist_point (Segment2D_of_points a b) p) as [d|e] eqn:D; cbn [bind]; [|reflexivity].
  rewrite <- IH by (intros a' b' d' I; apply H; now right). f_equal. specialize (H a b d (or_introl eq_refl) D). destruct m as [m|]; cbn [or_pinf upd_min]; [unfold less; cbn [nltb NumF]; now destruct (Bltb d m)|now apply less_pinf].
Qed.
Theorem C198_agrees_F : forall (L : libm) (vs : list (vec F)) (p : vec F), (forall v, In v vs -> fin2 v) ->
  bounding_box L vs = @Polygon2D_get_bounding_box F (NumF L) vs /\
  (forall allow, poly_contains L vs p allow = @Polygon2D_contains F (NumF L) vs p allow) /\
  ((forall a b d, In a vs -> In b vs -> @Segment2D_dist_point F (NumF L) (Segment2D_of_points a b) p = Ok d -> d <> B754_nan) ->
     forall check, poly_dist L vs p check = bind (@Polygon2D_dist F (NumF L) vs p check) (fun m => Ok (match m with Some d => d | None => pinf end))).
Proof.
  intros L vs p H. split; [now apply box_agrees|]. split; [intros allow; now apply contains_agrees|]. intros D check.
  assert (OP : forall a b, In (a, b) (open_pairs vs) -> In a vs /\ In b vs).
  { clear. induction vs as [|v [|w vs] IH]; intros a b I; [destruct I..|]. cbn [open_pairs] in I. destruct I as [[= <- <-]|I]; [split; [now left|right; now left]|]. destruct (IH _ _ I). split; now right. }
  assert (N1 : forall m, nearest L p (open_pairs vs) (or_pinf m) = bind (@dist_loop F (NumF L) p (open_pairs vs) m) (fun r => Ok (or_pinf r))).
  { apply nearest_agrees. intros a b d I. destruct (OP _ _ I). now apply D. }
  assert (N2 : forall v0 m, In v0 vs -> nearest L p [(last vs v0, v0)] (or_pinf m) = bind (@dist_loop F (NumF L) p [(last vs v0, v0)] m) (fun r => Ok (or_pinf r))).
  { intros v0 m I0. apply nearest_agrees. intros a b d [[= <- <-]|[]]. apply D; [|exact I0]. clear -I0. destruct vs as [|v vs]; [destruct I0|]. clear I0. revert v. induction vs as [|w vs IH]; intros v; [now left|]. right. apply IH. }
  unfold poly_dist, Polygon2D_dist. destruct vs as [|v [|w vs]].
  - destruct check; reflexivity.
  - destruct (Vector2D_r _); reflexivity.
  - rewrite contains_agrees by exact H. destruct (if check then _ else _) as [[]|e]; cbn [bind]; try reflexivity. change pinf with (or_pinf None). rewrite N1. destruct (dist_loop p _ None) as [m|e]; cbn [bind]; [|reflexivity].
    destruct vs as [|x vs]; [reflexivity|]. apply N2. now left.
Qed.

(** The distance from a polygon of several vertices to a point with a NaN coordinate is +inf, and from a single vertex it is NaN. *)
Lemma sqrt_nan L d : @nsqrt F (NumF L) B754_nan = Ok d -> d = B754_nan.
Proof. cbn [nsqrt NumF]. unfold F_sqrt. rewrite ltb_nan_l. now intros [= <-]. Qed.
Lemma dist_nan L s p d : pow_nan L -> has_nan p -> @Segment2D_dist_point F (NumF L) s p = Ok d -> d = B754_nan.
Proof.
  intros P H. unfold Segment2D_dist_point. destruct (Segment2D_length s) as [l|e]; cbn [bind]; [|discriminate]. destruct (@neqb F (NumF L) l _).
  - unfold Vector2D_dist. destruct (Vector2D_dist2 (s_origin s) p) as [q|e] eqn:E; cbn [bind]; [|discriminate]. rewrite (dist2_nan L _ _ _ P (or_intror H) E). apply sqrt_nan.
  - assert (Q : @Vector2D_inner_product F (NumF L) (@Vector2D_sub F (NumF L) (s_terminal s) (s_origin s)) (@Vector2D_sub F (NumF L) p (s_origin s)) = B754_nan).
    { unfold Vector2D_inner_product, Vector2D_sub. fops. destruct H as [E|E]; rewrite E; now nans. }
    rewrite Q. cbn [nleb NumF]. rewrite leb_nan_r. cbn [andb]. destruct (Vector2D_dist2 (s_origin s) p) as [q|e] eqn:E; cbn [bind]; [|discriminate]. rewrite (dist2_nan L _ _ _ P (or_intror H) E).
    destruct (Vector2D_dist2 (s_terminal s) p) as [q'|e] eqn:E'; cbn [bind]; [|discriminate]. rewrite (dist2_nan L _ _ _ P (or_intror H) E'). unfold nmin. cbn [nltb NumF]. rewrite ltb_nan_l. apply sqrt_nan.
Qed.
Lemma nearest_nan L p es : pow_nan L -> has_nan p -> forall m d, nearest L p es m = Ok d -> d = m.
Proof.
  intros P H. induction es as [|(a, b) es IH]; intros m d; cbn [nearest]; [now intros [= <-]|]. destruct (Segment2D_dist_point _ p) as [q|e] eqn:E; cbn [bind]; [|discriminate].
  rewrite (dist_nan L _ _ _ P H E). unfold less. rewrite ltb_nan_l. apply IH.
Qed.
Theorem C198_nan_dist_F : forall (L : libm) (vs : list (vec F)) (p : vec F) (check : bool) (d : F), pow_nan L -> has_nan p -> poly_dist L vs p check = Ok d ->
  d = if Nat.eqb (List.length vs) 1 then B754_nan else pinf.
Proof.
  intros L vs p check d P H. assert (C : (if check then poly_contains L vs p true else Ok false) = Ok false) by (destruct check; [now apply C198_nan_point_F|reflexivity]).
  unfold poly_dist. destruct vs as [|v [|w vs]]; cbn [List.length Nat.eqb].
  - rewrite C. cbn. now intros [= <-].
  - unfold Vector2D_r, Vector2D_r2, Vector2D_sub. fops. intros E. assert (Q : Bplus mode_NE (Bmult mode_NE (Bminus mode_NE (vx v) (vx p)) (Bminus mode_NE (vx v) (vx p))) (Bmult mode_NE (Bminus mode_NE (vy v) (vy p)) (Bminus mode_NE (vy v) (vy p))) = B754_nan) by (destruct H as [->| ->]; now nans).
    rewrite Q in E. now apply sqrt_nan in E.
  - rewrite C. cbn [bind]. destruct (nearest L p _ pinf) as [m|e] eqn:E; cbn [bind]; [|discriminate]. apply nearest_nan in E; [|assumption..]. subst m.
    destruct vs as [|x vs]; [now intros [= <-]|]. now apply nearest_nan.
Qed.

(** ** Which polygon calls raise, with the infinities the loops start from (C175) *)
Lemma nearest_ret L p es : pow_sane L -> vtame 500 p -> (forall e, In e es -> vtame 500 (fst e) /\ vtame 500 (snd e)) -> forall m, returns (nearest L p es m).
Proof.
  intros P V. induction es as [|[a b] es IH]; intros H m; cbn [nearest]; [apply ret_ok|]. apply ret_bind; [apply dist_point_ret; [exact P| |exact V]; apply (H (a, b)); now left|]. intros d _. apply IH. intros e He. apply H. now right.
Qed.
Lemma contains_ret L vs p allow : returns (poly_contains L vs p allow).
Proof.
  destruct vs as [|v [|w vs]]; cbn [poly_contains]; [apply ret_ok..|]. unfold bounding_box. cbn [bind]. ret_if; [apply ret_ok|]. apply ret_bind; [|intros; apply ret_ok].
  unfold half_line. apply ret_bind; [apply ret_r|]. intros; apply ret_ok.
Qed.
Theorem C175_polygons_F : forall (L : libm) (vs : list (vec F)) (p : vec F) (b : bool),
  (vs <> [] -> returns (bounding_box L vs)) /\ returns (poly_contains L vs p b) /\
  (pow_sane L -> Forall (vtame 500) vs -> vtame 500 p -> returns (poly_dist L vs p b)).
Proof.
  intros L vs p b. split; [destruct vs; [easy|intros _; apply ret_ok]|]. split; [apply contains_ret|]. intros P V X.
  assert (LP : forall e, In e (open_pairs vs) -> vtame 500 (fst e) /\ vtame 500 (snd e)) by now apply open_pairs_in.
  assert (IN : returns (if b then poly_contains L vs p true else Ok false)) by (destruct b; [apply contains_ret|apply ret_ok]).
  destruct vs as [|v [|w vs]]; cbn [poly_dist].
  - apply ret_bind; [exact IN|]. intros [] _; [apply ret_ok|]. apply ret_bind; [now apply nearest_ret|]. intros; apply ret_ok.
  - apply ret_r.
  - apply ret_bind; [exact IN|]. intros [] _; [apply ret_ok|]. apply ret_bind; [now apply nearest_ret|]. intros m _. destruct vs as [|z vs]; [apply ret_ok|]. apply nearest_ret; [exact P|exact X|]. intros e [<-|[]]. cbn [fst snd]. rewrite Forall_forall in V.
    split; [|apply V; now left]. apply V. assert (NE : v :: w :: z :: vs <> []) by discriminate. rewrite (app_removelast_last v NE) at 2. apply in_or_app. right. now left.
Qed.
(** a vertex at minus infinity and one that is NaN are allowed *)
Example C175_polygons_nonvacuous : Forall (vtame 500) [V minf (F_of_Z 0); V B754_nan (F_of_Z 3); V (F_of_Z 2) (F_of_Z 1)] /\ [V minf (F_of_Z 0)] <> [].
Proof.
  assert (Z : forall n, (0 <= n <= 3)%Z -> tame 500 (F_of_Z n)).
  { intros n H _. rewrite (proj1 (F_of_Z53 n ltac:(lia))). rewrite Rabs_pos_eq by (apply IZR_le; lia). apply Rle_trans with (bpow radix2 2); [|apply bpow_le; lia]. change (bpow radix2 2) with (IZR 4). apply IZR_le. lia. }
  split; [|discriminate]. apply Forall_cons; [|apply Forall_cons; [|apply Forall_cons; [|apply Forall_nil]]]; split; cbn [vx vy V]; try (apply Z; lia); intros H; discriminate H.
Qed.

(** ** Cases that meet the hypotheses *)
Definition sq (x y : Z) : vec F := V (F_of_Z x) (F_of_Z y).
Definition nanp : vec F := V B754_nan (F_of_Z 1).
Definition unit_square : list (vec F) := [sq 0 0; sq 4 0; sq 4 4; sq 0 4].
(** the square holds (1,2), and neither (NaN,1) nor, once a corner is at minus infinity, (1,2) *)
Example C198_nonvacuous : forall L : libm, has_nan nanp /\
  match bounding_box L unit_square with Ok b => Beqb (Rect2D_left b) (F_of_Z 0) && Beqb (@Rect2D_right F (NumF L) b) (F_of_Z 4) | _ => false end = true /\
  poly_contains L unit_square (sq 1 2) true = Ok true /\ poly_contains L unit_square nanp true = Ok false /\
  poly_contains L (V minf (F_of_Z 0) :: unit_square) (sq 1 2) true = Ok false /\
  match bounding_box L [nanp; sq 3 5] with Ok b => Beqb (Rect2D_left b) (F_of_Z 3) && Beqb (Rect2D_top b) (F_of_Z 1) | _ => false end = true /\
  (forall v, In v unit_square -> fin2 v).
Proof.
  intros L. repeat split; try (vm_compute; reflexivity); try (now left). 1-2: destruct H as [<-|[<-|[<-|[<-|[]]]]]; reflexivity.
Qed.
(** a bound of NaN: 10 degrees is in the range from 0 to NaN *)
Example C198_nan_bound : forall L : libm, @AngleDeg_is_within F (NumF L) (mkAngle (F_of_Z 10)) (AA (mkAngle (F_of_Z 0))) (AA (mkAngle B754_nan)) = Ok true.
Proof. intros L. vm_compute. reflexivity. Qed.
(** a library that squares exactly, on which every call above returns *)
Example C198_nan_dist_nonvacuous : pow_nan libm_sq /\ poly_dist libm_sq unit_square nanp true = Ok pinf /\
  match poly_dist libm_sq unit_square (sq 7 8) true with Ok d => Beqb d (F_of_Z 5) | _ => false end = true /\
  @Circle2D_contains F (NumF libm_sq) (mkCircle nanp (F_of_Z 5)) (sq 1 1) = Ok false.
Proof. repeat split; vm_compute; reflexivity. Qed.
