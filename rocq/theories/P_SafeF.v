(** * P_SafeF: which calls can raise on doubles (C175) *)
From Coq Require Import ZArith List Bool String Reals Lra Lia Psatz.
From Flocq Require Import Core BinarySingleNaN.
From Verif Require Import Base Types NumR NumF R_Tac Spec Abs M_Angle M_Vector M_Line M_Segment M_Ray M_Triangle M_Triangle2 M_Circle M_Sector M_Rect M_Polygon M_Matrix M_Hull
  L_Float P_Float P_AngleF P_AngleF2 P_Robust P_Hull2 P_VecF P_TrigF P_RectF P_LineF P_MatF P_CircF P_CircF2 P_CircumF P_Hull P_HullF.
Import ListNotations.
Local Open Scope R_scope.

(** The call returns a value. *)
Definition returns {A} (r : res A) : Prop := exists x, r = Ok x.

Lemma ret_ok {A} (x : A) : returns (Ok x).
Proof. now exists x. Qed.
Lemma ret_bind {A B} (r : res A) (f : A -> res B) : returns r -> (forall x, r = Ok x -> returns (f x)) -> returns (bind r f).
Proof. intros [x ->] H. apply (H x eq_refl). Qed.

(** ** Division and square root *)
Lemma ret_div (x y : F) : F_is_zero y = false -> returns (F_div x y).
Proof. intros H. unfold F_div. rewrite H. apply ret_ok. Qed.
Lemma zero_iff (y : F) : F_is_zero y = true <-> exists s, y = B754_zero s.
Proof.
  unfold F_is_zero. change (F_of_Z 0) with (@B754_zero 53 1024 false). split.
  - destruct y as [s|s| |s m e B]; try (destruct s); cbn; intros H; try discriminate; eauto.
  - intros [s ->]. destruct s; reflexivity.
Qed.
Lemma eps_nonzero L (y : F) : @nltb F (NumF L) (@nabs F (NumF L) y) (@EPSILON F (NumF L)) = false -> F_is_zero y = false.
Proof.
  intros H. destruct (F_is_zero y) eqn:E; [|reflexivity]. exfalso. apply zero_iff in E. destruct E as [s ->]. cbn [nltb nabs NumF Babs] in H. vm_compute in H. discriminate.
Qed.
Lemma ten_nonzero L (y : F) : @nltb F (NumF L) (@nabs F (NumF L) y) (@nlit F (NumF L) 1 10000000000) = false -> F_is_zero y = false.
Proof.
  intros H. destruct (F_is_zero y) eqn:E; [|reflexivity]. exfalso. apply zero_iff in E. destruct E as [s ->]. cbn [nltb nabs NumF Babs] in H. vm_compute in H. discriminate.
Qed.
(** a square is NaN, or has no sign *)
Definition nosign (x : F) : Prop := is_nan x = true \/ Bsign x = false.
Lemma nosign_mul (x : F) : nosign (Bmult mode_NE x x).
Proof.
  destruct (is_finite x) eqn:Fx.
  - destruct (Rlt_or_le (Rabs (rnd64 (B2R x * B2R x))) (bpow radix2 1024)) as [H|H].
    + pose proof (Bmult_correct 53 1024 _ _ mode_NE x x) as C. change (round radix2 (SpecFloat.fexp 53 1024) (round_mode mode_NE) (B2R x * B2R x)) with (rnd64 (B2R x * B2R x)) in C. rewrite Rlt_bool_true in C by exact H. destruct C as (_ & C2 & C3).
      destruct (is_nan (Bmult mode_NE x x)) eqn:N; [now left|right]. rewrite C3 by reflexivity. apply xorb_nilpotent.
    + pose proof (Bmult_correct 53 1024 _ _ mode_NE x x) as C. change (round radix2 (SpecFloat.fexp 53 1024) (round_mode mode_NE) (B2R x * B2R x)) with (rnd64 (B2R x * B2R x)) in C. rewrite Rlt_bool_false in C by exact H. rewrite xorb_nilpotent in C. right.
      destruct (Bmult mode_NE x x) as [s|s| |s m e B]; cbn in C; try discriminate; now injection C.
  - destruct x as [s|s| |s m e B]; try discriminate; [right; destruct s; reflexivity|left; reflexivity].
Qed.
Lemma nosign_pos (x : F) : nosign x -> is_finite x = true -> 0 <= B2R x.
Proof.
  intros [H|H] Fx; [destruct x; discriminate|]. destruct x as [s|s| |s m e B]; cbn in *; try lra. subst s. unfold F2R. cbn. apply Rmult_le_pos; [apply IZR_le; lia|apply bpow_ge_0].
Qed.
Definition notneg (x : F) : Prop := Bltb x (F_of_Z 0) = false.
Lemma notneg_nosign (x : F) : nosign x -> notneg x.
Proof.
  intros H. unfold notneg. destruct (is_finite x) eqn:Fx.
  - destruct (F_of_Z_exact 0 eq_refl) as [Z1 Z2]. rewrite ltb_F by assumption. rewrite Z1. apply Rlt_bool_false. now apply nosign_pos.
  - destruct x as [s|s| |s m e B]; try discriminate; [|reflexivity]. destruct H as [H|H]; [discriminate|]. cbn in H. subst s. reflexivity.
Qed.
Lemma notneg_add (x y : F) : nosign x -> nosign y -> notneg (Bplus mode_NE x y).
Proof.
  intros X Y. destruct (is_finite x) eqn:Fx; destruct (is_finite y) eqn:Fy.
  - pose proof (Bplus_correct 53 1024 _ _ mode_NE x y Fx Fy) as C. change (round radix2 (SpecFloat.fexp 53 1024) (round_mode mode_NE) (B2R x + B2R y)) with (rnd64 (B2R x + B2R y)) in C.
    pose proof (nosign_pos _ X Fx). pose proof (nosign_pos _ Y Fy).
    destruct (Rlt_or_le (Rabs (rnd64 (B2R x + B2R y))) (bpow radix2 1024)) as [H1|H1].
    + rewrite Rlt_bool_true in C by exact H1. destruct C as (C1 & C2 & _). unfold notneg. destruct (F_of_Z_exact 0 eq_refl) as [Z1 Z2]. rewrite ltb_F by assumption. rewrite Z1, C1. apply Rlt_bool_false. rewrite <- (rnd_id 0) by apply generic_format_0. apply rnd_le. lra.
    + rewrite Rlt_bool_false in C by exact H1. destruct C as [C _]. apply notneg_nosign. destruct X as [X|X]; [destruct x; discriminate|]. rewrite X in C. right. destruct (Bplus mode_NE x y) as [s|s| |s m e B]; cbn in C; try discriminate; now injection C.
  - destruct y as [s|s| |s m e B]; try discriminate.
    + destruct Y as [Y|Y]; [discriminate|]. cbn in Y. subst s. destruct x as [s|s| |s m e B]; try discriminate; try reflexivity; destruct s; reflexivity.
    + destruct x as [s|s| |s m e B]; try discriminate; try reflexivity; destruct s; reflexivity.
  - destruct x as [s|s| |s m e B]; try discriminate.
    + destruct X as [X|X]; [discriminate|]. cbn in X. subst s. destruct y as [s|s| |s m e B]; try discriminate; try reflexivity; destruct s; reflexivity.
    + reflexivity.
  - destruct x as [s|s| |s m e B]; try discriminate; [|reflexivity]. destruct X as [X|X]; [discriminate|]. cbn in X. subst s.
    destruct y as [s|s| |s m e B]; try discriminate; [|reflexivity]. destruct Y as [Y|Y]; [discriminate|]. cbn in Y. subst s. reflexivity.
Qed.
Lemma ret_sqrt L (x : F) : notneg x -> returns (@nsqrt F (NumF L) x).
Proof. intros H. cbn [nsqrt NumF]. unfold F_sqrt. rewrite H. apply ret_ok. Qed.
Lemma ret_hypot L (x y : F) : returns (@nsqrt F (NumF L) (Bplus mode_NE (Bmult mode_NE x x) (Bmult mode_NE y y))).
Proof. apply ret_sqrt, notneg_add; apply nosign_mul. Qed.

(** ** Calls that need no libm *)
Lemma ret_r L v : returns (@Vector2D_r F (NumF L) v).
Proof. apply ret_hypot. Qed.
Lemma ret_set_length L v l : returns (@Vector2D_set_length F (NumF L) v l).
Proof.
  unfold Vector2D_set_length. apply ret_bind; [apply ret_r|]. intros m _. destruct (@nltb F (NumF L) (@EPSILON F (NumF L)) m) eqn:E; [|apply ret_ok].
  apply ret_bind; [|intros; apply ret_ok]. apply ret_div. destruct (F_is_zero m) eqn:Z; [|reflexivity]. exfalso. apply zero_iff in Z. destruct Z as [s ->]. destruct s; vm_compute in E; discriminate.
Qed.
Lemma ret_get_x L l y : returns (@Line2D_get_x F (NumF L) l y).
Proof. unfold Line2D_get_x. destruct (@nltb F (NumF L) (@nabs F (NumF L) (l_a l)) (@EPSILON F (NumF L))) eqn:E; [apply ret_ok|]. apply ret_div, (eps_nonzero L), E. Qed.
Lemma ret_get_y L l x : returns (@Line2D_get_y F (NumF L) l x).
Proof. unfold Line2D_get_y. destruct (@nltb F (NumF L) (@nabs F (NumF L) (l_b l)) (@EPSILON F (NumF L))) eqn:E; [apply ret_ok|]. apply ret_div, (eps_nonzero L), E. Qed.
Lemma ret_line L l1 l2 : returns (@Line2D_intersection F (NumF L) l1 l2).
Proof.
  unfold Line2D_intersection. cbv zeta. match goal with |- context [if ?b then _ else _] => destruct b eqn:E end; [apply ret_ok|]. apply eps_nonzero in E.
  apply ret_bind; [now apply ret_div|]. intros x _. apply ret_bind; [now apply ret_div|]. intros y _. apply ret_ok.
Qed.
Ltac ret_if := match goal with |- returns (if ?b then _ else _) => destruct b eqn:? end.
Lemma ret_seg_line L s l : returns (@Segment2D_intersection_line F (NumF L) s l).
Proof. unfold Segment2D_intersection_line. apply ret_bind; [apply ret_line|]. intros v _. ret_if; apply ret_ok. Qed.
Lemma ret_seg_seg L s o b : returns (@Segment2D_intersection_seg F (NumF L) s o b).
Proof. unfold Segment2D_intersection_seg. apply ret_bind; [apply ret_line|]. intros v _. ret_if; [apply ret_ok|]. ret_if; apply ret_ok. Qed.
Lemma ret_truediv L v k : F_is_zero k = false -> returns (@Vector2D_truediv F (NumF L) v k).
Proof. intros H. unfold Vector2D_truediv. apply ret_bind; [now apply ret_div|]. intros x _. apply ret_bind; [now apply ret_div|]. intros y _. apply ret_ok. Qed.
Lemma ret_nearest L s p : returns (@Segment2D_nearest_point F (NumF L) s p).
Proof. unfold Segment2D_nearest_point. cbv zeta. ret_if; [apply ret_ok|]. ret_if; [apply ret_ok|]. ret_if; [apply ret_ok|]. apply ret_bind; [apply ret_truediv; assumption|]. intros q _. apply ret_ok. Qed.
Lemma ret_projection L s p : returns (@Segment2D_projection F (NumF L) s p).
Proof.
  unfold Segment2D_projection. cbv zeta. apply ret_bind; [apply ret_r|]. intros m _. ret_if; [apply ret_ok|]. apply ret_bind; [|intros d _; ret_if; apply ret_ok]. apply ret_truediv.
  destruct (F_is_zero m) eqn:Z; [|reflexivity]. exfalso. apply zero_iff in Z. destruct Z as [z ->]. destruct z; vm_compute in Heqb; discriminate.
Qed.
Lemma ret_circumcenter L a b c : returns (@tri_circumcenter F (NumF L) a b c).
Proof.
  assert (X : returns (@tri_circumcenter_formula F (NumF L) a b c)).
  { unfold tri_circumcenter_formula. cbv zeta. ret_if; [apply ret_ok|]. apply ten_nonzero in Heqb0. apply ret_bind; [now apply ret_div|]. intros; apply ret_ok. }
  unfold tri_circumcenter. cbv zeta. apply ret_bind; [apply ret_line|]. intros v _. ret_if; [|exact X]. apply ret_bind; [apply ret_line|]. intros w _. ret_if; [apply ret_ok|]. apply ret_bind; [apply ret_line|]. intros x _. ret_if; [apply ret_ok|exact X].
Qed.
Lemma ret_rect_line L r l : returns (@Rect2D_intersection_line F (NumF L) r l).
Proof.
  assert (V : forall s e, returns (@rect_vertical_side F (NumF L) r s e l)) by (intros s e; unfold rect_vertical_side; apply ret_bind; [apply ret_line|]; intros v _; ret_if; apply ret_ok).
  assert (H : forall s e, returns (@rect_horizontal_side F (NumF L) r s e l)) by (intros s e; unfold rect_horizontal_side; ret_if; [|apply ret_ok]; apply ret_bind; [apply ret_line|]; intros v _; ret_if; apply ret_ok).
  unfold Rect2D_intersection_line. apply ret_bind; [apply V|]. intros s1 _. apply ret_bind; [apply V|]. intros s2 _. apply ret_bind; [apply H|]. intros s3 _. apply ret_bind; [apply H|]. intros s4 _.
  destruct s4 as [|p [|q [|x s4]]]; try apply ret_ok. ret_if; apply ret_ok.
Qed.
Lemma ret_filter (ok : vec F -> res bool) sols : (forall p, returns (ok p)) -> returns (filter_sols ok sols).
Proof.
  intros H. destruct sols as [|p [|q rest]]; cbn [filter_sols]; [apply ret_ok| |].
  - apply ret_bind; [apply H|]. intros; apply ret_ok.
  - apply ret_bind; [apply H|]. intros b _. cbv zeta. apply ret_bind; [apply H|]. intros; apply ret_ok.
Qed.
Lemma ret_rect_seg L r s : returns (@Rect2D_intersection_seg F (NumF L) r s).
Proof. unfold Rect2D_intersection_seg. apply ret_bind; [apply ret_rect_line|]. intros sols _. apply ret_filter. intros; apply ret_ok. Qed.
Lemma extent_some {N : Num F} (upd : option F -> F -> option F) proj (vs : list (vec F)) m : (forall o x, upd o x <> None) -> (vs <> [] \/ m <> None) ->
  fold_left (fun m p => upd m (proj p)) vs m <> None.
Proof. intros U. revert m. induction vs as [|v vs IH]; intros m H; cbn [fold_left]; [destruct H as [H|H]; [now elim H|exact H]|]. apply IH. right. apply U. Qed.
Lemma ret_bbox L vs : vs <> [] -> returns (@Polygon2D_get_bounding_box F (NumF L) vs).
Proof.
  intros H. unfold Polygon2D_get_bounding_box, bbox_extent.
  assert (U1 : forall o x, @upd_min F (NumF L) o x <> None) by (intros [y|] x; unfold upd_min; [destruct (nltb x y)|]; discriminate). assert (U2 : forall o x, @upd_max F (NumF L) o x <> None) by (intros [y|] x; unfold upd_max; [destruct (nltb y x)|]; discriminate).
  pose proof (@extent_some (NumF L) (@upd_min F (NumF L)) (@vx F) vs None U1 (or_introl H)) as E1. pose proof (@extent_some (NumF L) (@upd_max F (NumF L)) (@vx F) vs None U2 (or_introl H)) as E2.
  pose proof (@extent_some (NumF L) (@upd_min F (NumF L)) (@vy F) vs None U1 (or_introl H)) as E3. pose proof (@extent_some (NumF L) (@upd_max F (NumF L)) (@vy F) vs None U2 (or_introl H)) as E4.
  destruct (fold_left _ vs None) as [x1|]; [|easy]. destruct (fold_left _ vs None) as [x2|]; [|easy]. destruct (fold_left _ vs None) as [x3|]; [|easy]. destruct (fold_left _ vs None) as [x4|]; [|easy]. apply ret_ok.
Qed.
Lemma ret_contains L vs p a : returns (@Polygon2D_contains F (NumF L) vs p a).
Proof.
  destruct vs as [|v [|w vs]]; cbn [Polygon2D_contains]; try apply ret_ok. apply ret_bind; [apply ret_bbox; discriminate|]. intros bb _. ret_if; [apply ret_ok|]. apply ret_bind; [|intros; apply ret_ok].
  unfold half_line. apply ret_bind; [apply ret_r|]. intros; apply ret_ok.
Qed.
Lemma ret_clip L f l es acc : returns (@clip_loop F (NumF L) f l es acc).
Proof.
  revert acc. induction es as [|[p0 p1] es IH]; intros acc; cbn [clip_loop]; [apply ret_ok|]. destruct (f p0), (f p1); try apply IH; (apply ret_bind; [apply ret_line|]; intros v _; ret_if; [apply ret_ok|apply IH]).
Qed.
(** C175: for any doubles at all, infinities and NaN included, and whatever the C library does, none of these
    calls raises.  (An empty polygon has no bounding box: get_bounding_box raises.  For a NaN coordinate the model's
    bounding box differs from the code's, see M_Polygon.v; no step after it can raise either way.) *)
Theorem C175_plain_F : forall (L : libm),
  (forall v l, returns (@Vector2D_r F (NumF L) v) /\ returns (@Vector2D_set_length F (NumF L) v l) /\ returns (@Vector2D_normalize F (NumF L) v) /\ returns (@Vector2D_set_length_vector F (NumF L) v l) /\ returns (@Vector2D_normalize_vector F (NumF L) v)) /\
  (forall l o p x, returns (@Line2D_get_x F (NumF L) l x) /\ returns (@Line2D_get_y F (NumF L) l x) /\ returns (@Line2D_intersection F (NumF L) l o) /\ returns (@Line2D_projection F (NumF L) l p)) /\
  (forall s o l p b, returns (@Segment2D_projection F (NumF L) s p) /\ returns (@Segment2D_on_segment_weakly F (NumF L) s p) /\ returns (@Segment2D_nearest_point F (NumF L) s p) /\
     returns (@Segment2D_intersection F (NumF L) s [VLine l]) /\ returns (@Segment2D_intersection F (NumF L) s [VSeg o]) /\ returns (@Segment2D_intersection F (NumF L) s [VSeg o; VBool b])) /\
  (forall t, returns (@Triangle2D_circumcenter F (NumF L) t) /\ returns (@Triangle2D_orthocenter F (NumF L) t)) /\
  (forall r s l z, returns (@Rect2D_intersection F (NumF L) r (VLine l)) /\ returns (@Rect2D_intersection F (NumF L) r (VSeg s)) /\ returns (@Size2D_diagonal F (NumF L) z)) /\
  (forall vs p a f l, returns (@Polygon2D_contains F (NumF L) vs p a) /\ returns (@get_line_clipped_polygon F (NumF L) f vs l) /\ (vs <> [] -> returns (@Polygon2D_get_bounding_box F (NumF L) vs) /\ returns (@Polygon2D_bounding_box_center F (NumF L) vs))) /\
  (forall m, returns (@Matrix2D_inverted F (NumF L) m)).
Proof.
  intros L. split; [|split; [|split; [|split; [|split; [|split]]]]].
  - intros v l. split; [apply ret_r|]. repeat split; apply ret_set_length.
  - intros l o p x. split; [apply ret_get_x|]. split; [apply ret_get_y|]. split; apply ret_line.
  - intros s o l p b. split; [apply ret_projection|split; [|split; [apply ret_nearest|split; [apply ret_seg_line|split; apply ret_seg_seg]]]].
    unfold Segment2D_on_segment_weakly. apply ret_bind; [apply ret_projection|]. intros; apply ret_ok.
  - intros t. split; [apply ret_circumcenter|apply ret_line].
  - intros r s l z. split; [apply ret_rect_line|]. split; [apply ret_rect_seg|apply ret_hypot].
  - intros vs p a f l. split; [apply ret_contains|]. split; [apply ret_clip|]. intros H. split; [now apply ret_bbox|]. unfold Polygon2D_bounding_box_center. apply ret_bind; [now apply ret_bbox|]. intros; apply ret_ok.
  - intros m. unfold Matrix2D_inverted. cbv zeta. ret_if; [apply ret_ok|]. apply ret_bind; [|intros; apply ret_ok]. apply ret_div. exact Heqb.
Qed.

(** ** Angles *)
(** The call returns a value with the property [P]. *)
Definition gives {A} (P : A -> Prop) (r : res A) : Prop := exists x, r = Ok x /\ P x.
Lemma gives_ret {A} P (r : res A) : gives P r -> returns r.
Proof. intros (x & H & _). now exists x. Qed.
Lemma gives_bind {A B} (P : A -> Prop) (Q : B -> Prop) (r : res A) (f : A -> res B) : gives P r -> (forall x, P x -> gives Q (f x)) -> gives Q (bind r f).
Proof. intros (x & -> & Hx) H. apply (H x Hx). Qed.
Lemma rgives_bind {A B} (P : A -> Prop) (r : res A) (f : A -> res B) : gives P r -> (forall x, P x -> returns (f x)) -> returns (bind r f).
Proof. intros (x & -> & Hx) H. apply (H x Hx). Qed.
Lemma gives_ok {A} (P : A -> Prop) x : P x -> gives P (Ok x).
Proof. intros H. now exists x. Qed.

(** An angle object: the stored degree is NaN or a finite double in [-180,180] (C01: every constructor
    establishes it). *)
Definition angle_obj (a : angle F) : Prop := good_or_nan (a_degree a).
(** a number that is NaN, or finite and at most 2^j in size *)
Definition calm (j : Z) (x : F) : Prop := x = B754_nan \/ (is_finite x = true /\ Rabs (B2R x) <= bpow radix2 j).
Definition angle_arg (x : ang_arg F) : Prop := match x with AA a => angle_obj a | AN x => F_is_inf x = false end.
Definition angle_arg_calm (x : ang_arg F) : Prop := match x with AA a => angle_obj a | AN x => calm 1000 x end.

Lemma calm_noinf j x : calm j x -> F_is_inf x = false.
Proof. intros [->|[H _]]; [reflexivity|]. now destruct x. Qed.
Lemma noinf_cases x : F_is_inf x = false -> x = B754_nan \/ is_finite x = true.
Proof. destruct x; intros H; try discriminate; auto. Qed.
Lemma calm_up j k x : (j <= k)%Z -> calm j x -> calm k x.
Proof. intros H [->|[F1 F2]]; [now left|right; split; [exact F1|]]. eapply Rle_trans; [exact F2|now apply bpow_le]. Qed.
Lemma calm_deg d : good_or_nan d -> calm 8 d.
Proof. intros [->|[F1 F2]]; [now left|right; split; [exact F1|]]. apply Rabs_le. change (bpow radix2 8) with 256. lra. Qed.
Lemma fin_lt j x : (j <= 1020)%Z -> Rabs x <= bpow radix2 j -> Rabs x < bpow radix2 1024.
Proof. intros Hj H. eapply Rle_lt_trans; [exact H|]. apply bpow_lt. lia. Qed.
Lemma calm_neg j x : calm j x -> calm j (Bopp x).
Proof. intros [->|[F1 F2]]; [now left|right]. now rewrite is_finite_Bopp, B2R_Bopp, Rabs_Ropp. Qed.
Lemma calm_add j x y : (-900 <= j <= 1010)%Z -> calm j x -> calm j y -> calm (j + 1) (Bplus mode_NE x y).
Proof.
  intros J [->|[F1 F2]] HY; [now left|]. destruct HY as [->|[G1 G2]]; [left; now destruct x|right].
  assert (B : Rabs (B2R x + B2R y) <= bpow radix2 (j + 1)). { eapply Rle_trans; [apply Rabs_triang|]. rewrite Z.add_comm, bp2. lra. }
  destruct (rnd_err (B2R x + B2R y) (j + 1) ltac:(lia) B) as [_ E]. destruct (F_add x y F1 G1) as [S1 S2]; [apply (fin_lt (j + 1)); [lia|exact E]|]. split; [exact S2|]. now rewrite S1.
Qed.
Lemma calm_sub j x y : (-900 <= j <= 1010)%Z -> calm j x -> calm j y -> calm (j + 1) (Bminus mode_NE x y).
Proof.
  intros J [->|[F1 F2]] HY; [now left|]. destruct HY as [->|[G1 G2]]; [left; now destruct x|right].
  assert (B : Rabs (B2R x - B2R y) <= bpow radix2 (j + 1)). { unfold Rminus. eapply Rle_trans; [apply Rabs_triang|]. rewrite Rabs_Ropp, Z.add_comm, bp2. lra. }
  destruct (rnd_err (B2R x - B2R y) (j + 1) ltac:(lia) B) as [_ E]. destruct (F_sub x y F1 G1) as [S1 S2]; [apply (fin_lt (j + 1)); [lia|exact E]|]. split; [exact S2|]. now rewrite S1.
Qed.
Lemma calm_mul j k x y : (-900 <= j + k <= 1010)%Z -> calm j x -> calm k y -> calm (j + k) (Bmult mode_NE x y).
Proof.
  intros J [->|[F1 F2]] HY; [now left|]. destruct HY as [->|[G1 G2]]; [left; now destruct x|right].
  assert (B : Rabs (B2R x * B2R y) <= bpow radix2 (j + k)). { rewrite Rabs_mult, bpow_plus. apply Rmult_le_compat; try apply Rabs_pos; assumption. }
  destruct (rnd_err (B2R x * B2R y) (j + k) ltac:(lia) B) as [_ E]. destruct (F_mul x y F1 G1) as [S1 S2]; [apply (fin_lt (j + k)); [lia|exact E]|]. split; [exact S2|]. now rewrite S1.
Qed.
Lemma calm_div j k x y : (-900 <= j - k <= 1010)%Z -> calm j x -> is_finite y = true -> bpow radix2 k <= Rabs (B2R y) -> calm (j - k) (Bdiv mode_NE x y).
Proof.
  intros J [->|[F1 F2]] G1 G2; [now left|right]. assert (K := bpow_gt_0 radix2 k). assert (NZ : B2R y <> 0) by (intros E; rewrite E, Rabs_R0 in G2; lra).
  assert (B : Rabs (B2R x / B2R y) <= bpow radix2 (j - k)).
  { unfold Rdiv. rewrite Rabs_mult, Rabs_inv. unfold Zminus. rewrite bpow_plus, bpow_opp. apply Rmult_le_compat; [apply Rabs_pos|left; apply Rinv_0_lt_compat; lra|exact F2|apply Rinv_le; lra]. }
  destruct (rnd_err (B2R x / B2R y) (j - k) ltac:(lia) B) as [_ E]. destruct (F_quot x y F1 NZ) as [S1 S2]; [apply (fin_lt (j - k)); [lia|exact E]|]. split; [exact S2|]. now rewrite S1.
Qed.
Lemma normal_gives L x : F_is_inf x = false -> gives good_or_nan (@AngleDeg_normal F (NumF L) x).
Proof. intros H. destruct (noinf_cases x H) as [->|Fx]; [exists B754_nan; split; [reflexivity|now left]|]. destruct (normal_F L x Fx) as (d & E & D1 & D2 & _). exists d. split; [exact E|right; now split]. Qed.
Lemma of_num_gives L x : F_is_inf x = false -> gives angle_obj (@AngleDeg_of_num F (NumF L) x).
Proof. intros H. apply gives_bind with good_or_nan; [now apply normal_gives|]. intros d D. now apply gives_ok. Qed.
Lemma degree_gives L a : angle_obj a -> gives good_or_nan (@AngleDeg_degree F (NumF L) a).
Proof. intros H. rewrite degree_F_good by exact H. now apply gives_ok. Qed.
Lemma of_angle_gives L a : angle_obj a -> gives angle_obj (@AngleDeg_of_angle F (NumF L) a).
Proof. intros H. apply gives_bind with good_or_nan; [now apply degree_gives|]. intros d D. apply of_num_gives, (calm_noinf 8), calm_deg, D. Qed.
Lemma of_arg_gives L x : angle_arg x -> gives angle_obj (@AngleDeg_of_arg F (NumF L) x).
Proof. destruct x; intros H; [now apply of_angle_gives|now apply of_num_gives]. Qed.
Lemma to_angle_gives L x : angle_arg x -> gives angle_obj (@to_angle F (NumF L) x).
Proof. destruct x; intros H; [now apply gives_ok|now apply of_num_gives]. Qed.
Lemma arg_calm x : angle_arg_calm x -> angle_arg x.
Proof. destruct x; cbn; [auto|apply calm_noinf]. Qed.
Lemma ang_num_gives L x : angle_arg_calm x -> gives (calm 1000) (@ang_num F (NumF L) x).
Proof.
  destruct x; intros H; [|now apply gives_ok]. destruct (degree_gives L a H) as (d & E & D). exists d. split; [exact E|]. apply (calm_up 8); [lia|now apply calm_deg].
Qed.
Lemma add_gives L a x : angle_obj a -> angle_arg_calm x -> gives angle_obj (@AngleDeg_add F (NumF L) a x).
Proof. intros A X. apply gives_bind with (calm 1000); [now apply ang_num_gives|]. intros o O. apply of_num_gives, (calm_noinf 1001), (calm_add 1000); [lia| |exact O]. apply (calm_up 8); [lia|now apply calm_deg]. Qed.
Lemma isub_gives L a x : angle_obj a -> angle_arg_calm x -> gives angle_obj (@AngleDeg_isub F (NumF L) a x).
Proof. intros A X. apply gives_bind with (calm 1000); [now apply ang_num_gives|]. intros o O. apply of_num_gives, (calm_noinf 1001), (calm_sub 1000); [lia| |exact O]. apply (calm_up 8); [lia|now apply calm_deg]. Qed.
Lemma sub_gives L a x : angle_obj a -> angle_arg_calm x -> gives angle_obj (@AngleDeg_sub F (NumF L) a x).
Proof.
  intros A X. destruct x as [b|y]; cbn [AngleDeg_sub]; apply of_num_gives.
  - apply (calm_noinf 9), (calm_sub 8); [lia|now apply calm_deg|now apply calm_deg].
  - apply (calm_noinf 1001), (calm_sub 1000); [lia| |exact X]. apply (calm_up 8); [lia|now apply calm_deg].
Qed.
Lemma left_eq_ret L a x : angle_obj a -> angle_arg x -> returns (@AngleDeg_is_left_equal_of F (NumF L) a x).
Proof. intros A X. apply rgives_bind with angle_obj; [now apply to_angle_gives|]. intros b B. apply rgives_bind with good_or_nan; [now apply degree_gives|]. intros d _. apply ret_ok. Qed.
Lemma within_ret L a l r : angle_obj a -> angle_arg l -> angle_arg r -> returns (@AngleDeg_is_within F (NumF L) a l r).
Proof.
  intros A HL HR. apply rgives_bind with angle_obj; [now apply to_angle_gives|]. intros l' L'. apply rgives_bind with angle_obj; [now apply to_angle_gives|]. intros r' R'.
  apply ret_bind; [now apply left_eq_ret|]. intros [] _.
  - apply ret_bind; [now apply left_eq_ret|]. intros [] _; [now apply left_eq_ret|apply ret_ok].
  - apply ret_bind; [now apply left_eq_ret|]. intros [] _; [apply ret_ok|now apply left_eq_ret].
Qed.
Lemma bisect_gives L l r : angle_arg l -> angle_arg r -> gives angle_obj (@AngleDeg_bisect F (NumF L) l r).
Proof.
  intros HL HR. apply gives_bind with angle_obj; [now apply of_arg_gives|]. intros res HRes. apply gives_bind with angle_obj; [now apply of_arg_gives|]. intros r1 R1.
  apply gives_bind with angle_obj; [now apply sub_gives|]. intros rel0 R0. apply gives_bind with angle_obj; [now apply of_angle_gives|]. intros rel Rel.
  apply gives_bind with good_or_nan; [now apply degree_gives|]. intros dl _. apply gives_bind with angle_obj; [now apply of_arg_gives|]. intros r2 R2. apply gives_bind with good_or_nan; [now apply degree_gives|]. intros dr _. cbv zeta.
  apply gives_bind with good_or_nan; [now apply degree_gives|]. intros drel Drel. apply gives_bind with angle_obj.
  - apply add_gives; [exact HRes|]. cbn [angle_arg_calm]. apply (calm_up (8 + 0)); [lia|]. apply calm_mul; [lia|now apply calm_deg|]. right. destruct (half_F L) as [E E'].
    split; [exact E'|]. rewrite E. rewrite Rabs_pos_eq by lra. change (bpow radix2 0) with 1. lra.
  - intros res' Res'. match goal with |- gives _ (if ?b then _ else _) => destruct b end; [now apply gives_ok|]. apply add_gives; [exact Res'|]. cbn [angle_arg_calm]. right. change (@nlit F (NumF L) 180 1) with (F_of_Z 180). destruct (F_of_Z_exact 180 eq_refl) as [E1 E2]. split; [exact E2|]. rewrite E1, Rabs_pos_eq by lra.
    apply Rle_trans with (bpow radix2 8); [change (bpow radix2 8) with 256; lra|apply bpow_le; lia].
Qed.

(** C175: an AngleDeg can be built from every number but the infinities, which raise ValueError. *)
Theorem C175_angle_init_F : forall (L : libm) (x : F),
  (F_is_inf x = false -> exists a, @AngleDeg_init F (NumF L) [VNum x] [] = Ok a /\ angle_obj a) /\
  (F_is_inf x = true -> @AngleDeg_init F (NumF L) [VNum x] [] = Raise ValueError).
Proof.
  intros L x. split; [apply of_num_gives|]. destruct x as [s|s| |s m e B]; intros H; try discriminate. cbn [AngleDeg_init AngleDeg_ctor_val]. unfold AngleDeg_of_num. now rewrite normal_F_inf.
Qed.
(** C175: on angle objects every operation returns; so does every operation between an angle object and a number
    that is NaN or at most 2^1000 (the comparisons and bisect: any number that is not infinite); and what comes out is
    again an angle object. *)
Theorem C175_angles_F : forall (L : libm) (a : angle F), angle_obj a ->
  (returns (@AngleDeg_degree F (NumF L) a) /\ returns (@AngleDeg_abs F (NumF L) a) /\ returns (@AngleDeg_radian F (NumF L) a) /\ returns (@AngleDeg_float F (NumF L) a) /\ returns (@AngleDeg_get_normalized F (NumF L) a) /\
   gives angle_obj (@AngleDeg_copy F (NumF L) a) /\ gives angle_obj (@AngleDeg_neg F (NumF L) a) /\ angle_obj (@AngleDeg_reverse F (NumF L) a) /\ gives angle_obj (@AngleDeg_reverse_angle F (NumF L) a)) /\
  (forall x, angle_arg x -> returns (@AngleDeg_is_left_of F (NumF L) a x) /\ returns (@AngleDeg_is_right_of F (NumF L) a x) /\ returns (@AngleDeg_is_left_equal_of F (NumF L) a x) /\ returns (@AngleDeg_is_right_equal_of F (NumF L) a x)) /\
  (forall l r, angle_arg l -> angle_arg r -> returns (@AngleDeg_is_within F (NumF L) a l r) /\ gives angle_obj (@AngleDeg_bisect F (NumF L) l r)) /\
  (forall x, angle_arg_calm x -> gives angle_obj (@AngleDeg_add F (NumF L) a x) /\ gives angle_obj (@AngleDeg_sub F (NumF L) a x) /\ gives angle_obj (@AngleDeg_iadd F (NumF L) a x) /\ gives angle_obj (@AngleDeg_isub F (NumF L) a x) /\ returns (@AngleDeg_eq F (NumF L) a x)) /\
  (forall k, calm 1000 k -> gives angle_obj (@AngleDeg_mul F (NumF L) a k) /\ gives angle_obj (@AngleDeg_imul F (NumF L) a k)) /\
  (forall k, is_finite k = true -> bpow radix2 (-1000) <= Rabs (B2R k) -> gives angle_obj (@AngleDeg_floordiv F (NumF L) a k)).
Proof.
  intros L a A. destruct (F_of_Z_exact 180 eq_refl) as [E1 E2]. assert (C180 : calm 8 (F_of_Z 180)) by (right; split; [exact E2|rewrite E1, Rabs_pos_eq by lra; change (bpow radix2 8) with 256; lra]).
  assert (REV : forall a', angle_obj a' -> angle_obj (@AngleDeg_reverse F (NumF L) a')).
  { intros a' [H|H]; [|right; now apply reverse_F_good]. left. unfold AngleDeg_reverse. rewrite H. reflexivity. }
  split; [|split; [|split; [|split; [|split]]]].
  - split; [apply gives_ret with good_or_nan; now apply degree_gives|]. split; [apply rgives_bind with good_or_nan; [now apply degree_gives|intros; apply ret_ok]|]. split; [apply rgives_bind with good_or_nan; [now apply degree_gives|intros; apply ret_ok]|].
    split; [apply gives_ret with good_or_nan; now apply degree_gives|]. split; [apply rgives_bind with good_or_nan; [now apply degree_gives|intros; apply ret_div; reflexivity]|].
    split; [apply of_num_gives, (calm_noinf 8), calm_deg, A|]. split; [apply of_num_gives, (calm_noinf 8), calm_neg, calm_deg, A|]. split; [now apply REV|].
    apply gives_bind with good_or_nan; [now apply degree_gives|]. intros d D. apply gives_bind with angle_obj; [apply of_num_gives, (calm_noinf 8), calm_deg, D|]. intros b B. apply gives_ok. now apply REV.
  - intros x X. split; [|split; [|split; [now apply left_eq_ret|]]]; (apply rgives_bind with angle_obj; [now apply to_angle_gives|]; intros b B; apply rgives_bind with good_or_nan; [now apply degree_gives|]; intros d1 _; apply rgives_bind with good_or_nan; [now apply degree_gives|]; intros d2 _; apply ret_ok).
  - intros l r HL HR. split; [now apply within_ret|now apply bisect_gives].
  - intros x X. split; [now apply add_gives|]. split; [now apply sub_gives|]. split; [now apply add_gives|]. split; [now apply isub_gives|]. apply rgives_bind with (calm 1000); [now apply ang_num_gives|]. intros o _. apply ret_ok.
  - intros k K. assert (G : gives angle_obj (@AngleDeg_mul F (NumF L) a k)) by (apply of_num_gives, (calm_noinf (8 + 1000)), calm_mul; [lia|now apply calm_deg|exact K]). split; exact G.
  - intros k K1 K2. apply gives_bind with (calm (8 - -1000)).
    + exists (Bdiv mode_NE (a_degree a) k). split.
      * cbn [ndiv NumF]. unfold F_div. replace (F_is_zero k) with false; [reflexivity|]. symmetry. apply not_true_iff_false. rewrite zero_iff. intros [s ->]. change (B2R (B754_zero s)) with 0 in K2. rewrite Rabs_R0 in K2. pose proof (bpow_gt_0 radix2 (-1000)). lra.
      * apply calm_div; [lia|now apply calm_deg|exact K1|exact K2].
    + intros q Q. apply of_num_gives, (calm_noinf (8 - -1000)), Q.
Qed.

(** ** Directions *)
(** What is needed of the C library: sine and cosine of a finite number are finite and at most 4 in size, and atan2
    answers NaN or a number in [-4,4] (any real one stays within pi). *)
Definition trig_sane (L : libm) : Prop :=
  (forall x, is_finite x = true -> fbound 2 (lm_sin L x) /\ fbound 2 (lm_cos L x)) /\ (forall y x, calm 2 (lm_atan2 L y x)).
Lemma ret_math1 f b x : F_is_inf x = false -> (is_finite x = true -> is_finite (f x) = true) -> returns (F_math1 f b x).
Proof.
  intros H Hf. destruct (noinf_cases x H) as [->|Fx]; [|rewrite math1_finite by (now apply Hf); apply ret_ok]. unfold F_math1. cbn [is_nan is_finite negb]. rewrite !andb_false_r. apply ret_ok.
Qed.
Lemma calm_rad L x : calm 1000 x -> calm 995 (Bmult mode_NE x (@DEG2RAD F (NumF L))).
Proof. intros H. destruct (deg2rad_const L) as (D1 & _ & D2). apply (calm_mul 1000 (-5)); [lia|exact H|right; now split]. Qed.
Lemma ret_sin L x : trig_sane L -> calm 1000 x -> returns (@nsin F (NumF L) (@nmul F (NumF L) x (@DEG2RAD F (NumF L)))).
Proof. intros [S _] H. apply ret_math1; [apply (calm_noinf 995), calm_rad, H|]. intros Fx. now apply S. Qed.
Lemma ret_cos L x : trig_sane L -> calm 1000 x -> returns (@ncos F (NumF L) (@nmul F (NumF L) x (@DEG2RAD F (NumF L)))).
Proof. intros [S _] H. apply ret_math1; [apply (calm_noinf 995), calm_rad, H|]. intros Fx. now apply S. Qed.
Lemma calm_obj a : angle_obj a -> calm 1000 (a_degree a).
Proof. intros H. apply (calm_up 8); [lia|]. now apply calm_deg. Qed.
Lemma th_gives L v : trig_sane L -> gives angle_obj (@Vector2D_th F (NumF L) v).
Proof.
  intros [_ S]. apply of_num_gives. unfold atan2_deg. match goal with |- context [if ?b then _ else _] => destruct b end; [reflexivity|].
  destruct (rad2deg_const L) as (D1 & _ & D2). apply (calm_noinf (2 + 6)), calm_mul; [lia|apply S|right; now split].
Qed.
Lemma polar_ret L m x : trig_sane L -> angle_arg x -> returns (@Vector2D_from_polar F (NumF L) m x).
Proof.
  intros S X. apply rgives_bind with angle_obj; [now apply to_angle_gives|]. intros a A. apply ret_bind; [apply ret_cos; [exact S|now apply calm_obj]|]. intros c _. apply ret_bind; [apply ret_sin; [exact S|now apply calm_obj]|]. intros; apply ret_ok.
Qed.
Lemma line_angle_ret L p x : trig_sane L -> angle_arg x -> returns (@Line2D_of_angle F (NumF L) p x).
Proof.
  intros S X. apply rgives_bind with angle_obj; [now apply to_angle_gives|]. intros a A. apply ret_bind; [apply ret_sin; [exact S|now apply calm_obj]|]. intros c _. apply ret_bind; [apply ret_cos; [exact S|now apply calm_obj]|]. intros; apply ret_ok.
Qed.
Lemma abs_ret L a : angle_obj a -> returns (@AngleDeg_abs F (NumF L) a).
Proof. intros A. apply rgives_bind with good_or_nan; [now apply degree_gives|intros; apply ret_ok]. Qed.
(** a ray object *)
Definition ray_obj (r : ray F) : Prop := angle_obj (ray_dir r).
Lemma right_dir_ret L r p t : trig_sane L -> ray_obj r -> returns (@Ray2D_in_right_dir_thr F (NumF L) r p t).
Proof. intros S R. apply rgives_bind with angle_obj; [now apply th_gives|]. intros th TH. apply rgives_bind with angle_obj; [now apply sub_gives|]. intros d D. apply ret_bind; [now apply abs_ret|]. intros; apply ret_ok. Qed.
Lemma ray_line_ret L r : trig_sane L -> ray_obj r -> returns (@Ray2D_line F (NumF L) r).
Proof. intros S R. now apply line_angle_ret. Qed.
Lemma sector_div_ret L s : angle_obj (sec_start s) -> angle_obj (sec_end s) -> returns (@Sector2D_div F (NumF L) s).
Proof. intros A B. apply rgives_bind with angle_obj; [now apply sub_gives|]. intros; apply ret_ok. Qed.

(** C175: with a sane sine, cosine and atan2 none of these calls raises, whatever the coordinates are (infinities and
    NaN included): only the angle arguments matter, and they may be any angle object or any number but an infinity (for
    rotate: NaN or at most 2^1000). *)
Theorem C175_directions_F : forall (L : libm), trig_sane L ->
  (forall v, gives angle_obj (@Vector2D_th F (NumF L) v)) /\
  (forall v m x, angle_arg x -> returns (@Vector2D_from_polar F (NumF L) m x) /\ returns (@Vector2D_set_dir F (NumF L) v x)) /\
  (forall v x, angle_arg_calm x -> returns (@Vector2D_rotate F (NumF L) v x) /\ returns (@Vector2D_rotated_vector F (NumF L) v x)) /\
  (forall p x y, angle_arg x -> angle_arg y -> returns (@Line2D_of_angle F (NumF L) p x) /\ returns (@Line2D_angle_bisector F (NumF L) p x y)) /\
  (forall s p m x, angle_arg x -> gives angle_obj (@Segment2D_direction F (NumF L) s) /\ returns (@Segment2D_of_polar F (NumF L) p m x)) /\
  (forall t, returns (@Triangle2D_incenter F (NumF L) t)) /\
  (forall p q x, angle_arg x -> gives ray_obj (@Ray2D_of_point F (NumF L) p q) /\ gives ray_obj (@Ray2D_of_angle F (NumF L) p x)) /\
  (forall r o p l, ray_obj r -> ray_obj o -> gives angle_obj (@Ray2D_dir F (NumF L) r) /\ gives ray_obj (@Ray2D_copy F (NumF L) r) /\ returns (@Ray2D_line F (NumF L) r) /\ returns (@Ray2D_in_right_dir F (NumF L) r p) /\
     returns (@Ray2D_intersection F (NumF L) r (VLine l)) /\ returns (@Ray2D_intersection F (NumF L) r (VRay o)) /\ returns (@Ray2D_eq F (NumF L) r o)) /\
  (forall R r, ray_obj r -> returns (@Rect2D_intersection F (NumF L) R (VRay r))) /\
  (forall p a b x y, angle_arg x -> angle_arg y -> gives (fun s => angle_obj (sec_start s) /\ angle_obj (sec_end s)) (@Sector2D_init F (NumF L) p a b x y)) /\
  (forall s o p, angle_obj (sec_start s) -> angle_obj (sec_end s) -> angle_obj (sec_start o) -> angle_obj (sec_end o) -> returns (@Sector2D_contains F (NumF L) s p) /\ returns (@Sector2D_area F (NumF L) s) /\
     returns (@Sector2D_circumference_min F (NumF L) s) /\ returns (@Sector2D_circumference_max F (NumF L) s) /\ returns (@Sector2D_eq F (NumF L) s o)) /\
  (forall m a, angle_obj a -> returns (@Matrix2D_rotate F (NumF L) m a) /\ returns (@make_rotation F (NumF L) a)) /\
  (forall vs r, returns (@Polygon2D_get_rectangle_clipped_polygon F (NumF L) vs r)).
Proof.
  intros L S.
  split; [intros v; now apply th_gives|].
  split. { intros v m x X. split; [now apply polar_ret|]. apply rgives_bind with angle_obj; [now apply to_angle_gives|]. intros a A. apply ret_bind; [apply ret_r|]. intros rr _. apply ret_bind; [apply ret_cos; [exact S|now apply calm_obj]|]. intros c _. apply ret_bind; [apply ret_sin; [exact S|now apply calm_obj]|]. intros; apply ret_ok. }
  assert (ROT : forall v x, angle_arg_calm x -> returns (@Vector2D_rotate F (NumF L) v x)).
  { intros v x X. apply rgives_bind with (calm 1000); [now apply ang_num_gives|]. intros d D. apply ret_bind; [now apply ret_cos|]. intros c _. apply ret_bind; [now apply ret_sin|]. intros; apply ret_ok. }
  split. { intros v x X. split; now apply ROT. }
  split. { intros p x y X Y. split; [now apply line_angle_ret|]. apply rgives_bind with angle_obj; [now apply bisect_gives|]. intros b B. now apply line_angle_ret. }
  split. { intros s p m x X. split; [now apply th_gives|]. apply ret_bind; [now apply polar_ret|]. intros; apply ret_ok. }
  split. { intros t. apply rgives_bind with angle_obj; [now apply th_gives|]. intros a1 A1. apply rgives_bind with angle_obj; [now apply th_gives|]. intros a2 A2. apply rgives_bind with angle_obj; [now apply bisect_gives|]. intros a3 A3. apply ret_bind; [now apply line_angle_ret|]. intros l1 _.
    apply rgives_bind with angle_obj; [now apply th_gives|]. intros a4 A4. apply rgives_bind with angle_obj; [now apply th_gives|]. intros a5 A5. apply rgives_bind with angle_obj; [now apply bisect_gives|]. intros a6 A6. apply ret_bind; [now apply line_angle_ret|]. intros l2 _. apply ret_line. }
  assert (RA : forall p x, angle_arg x -> gives ray_obj (@Ray2D_of_angle F (NumF L) p x)) by (intros p x X; apply gives_bind with angle_obj; [now apply of_arg_gives|]; intros a A; now apply gives_ok).
  split. { intros p q x X. split; [|now apply RA]. apply gives_bind with angle_obj; [now apply th_gives|]. intros a A. now apply gives_ok. }
  split. { intros r o p l R O. split; [now apply of_angle_gives|]. split; [apply gives_bind with angle_obj; [now apply of_angle_gives|]; intros d D; now apply RA|]. split; [now apply ray_line_ret|]. split; [now apply right_dir_ret|].
    split; [|split].
    - cbn [Ray2D_intersection]. apply ret_bind; [now apply ray_line_ret|]. intros rl _. apply ret_bind; [apply ret_line|]. intros sol _. ret_if; [apply ret_ok|]. apply ret_bind; [now apply right_dir_ret|]. intros ok _. ret_if; apply ret_ok.
    - cbn [Ray2D_intersection]. apply ret_bind; [now apply ray_line_ret|]. intros rl _. apply ret_bind; [now apply ray_line_ret|]. intros ol _. apply ret_bind; [apply ret_line|]. intros sol _. ret_if; [apply ret_ok|]. apply ret_bind; [now apply right_dir_ret|]. intros ok _. ret_if; [apply ret_ok|]. apply ret_bind; [now apply right_dir_ret|]. intros ok2 _. ret_if; apply ret_ok.
    - apply rgives_bind with angle_obj; [now apply sub_gives|]. intros d D. apply rgives_bind with good_or_nan; [now apply degree_gives|]. intros; apply ret_ok. }
  split. { intros R r HR. cbn [Rect2D_intersection]. apply ret_bind; [now apply ray_line_ret|]. intros l _. apply ret_bind; [apply ret_rect_line|]. intros sols _. apply ret_filter. intros p. now apply right_dir_ret. }
  split. { intros p a b x y X Y. apply gives_bind with angle_obj; [now apply of_arg_gives|]. intros sa A. apply gives_bind with angle_obj; [now apply of_arg_gives|]. intros ea B. now apply gives_ok. }
  split. { intros s o p A B C D. assert (DV := sector_div_ret L s A B). split; [|split; [|split; [|split]]].
    - unfold Sector2D_contains. cbv zeta. ret_if; [|apply ret_ok]. apply rgives_bind with angle_obj; [now apply th_gives|]. intros th TH. now apply within_ret.
    - apply ret_bind; [exact DV|]. intros d _. apply ret_div. reflexivity.
    - apply ret_bind; [exact DV|]. intros d _. apply ret_bind; [apply ret_div; reflexivity|]. intros; apply ret_ok.
    - apply ret_bind; [exact DV|]. intros d _. apply ret_bind; [apply ret_div; reflexivity|]. intros; apply ret_ok.
    - unfold Sector2D_eq. ret_if; [|apply ret_ok]. assert (EQ : forall a b, angle_obj a -> angle_obj b -> returns (@AngleDeg_eq F (NumF L) a (AA b))) by (intros a b HA HB; apply rgives_bind with (calm 1000); [now apply ang_num_gives|]; intros; apply ret_ok).
      apply ret_bind; [now apply EQ|]. intros [] _; [|apply ret_ok]. apply ret_bind; [now apply EQ|]. intros [] _; apply ret_ok. }
  split. { intros m a A. split; (apply ret_bind; [apply ret_sin || apply ret_cos; [exact S|now apply calm_obj]|]; intros c _; apply ret_bind; [apply ret_sin || apply ret_cos; [exact S|now apply calm_obj]|]; intros; apply ret_ok). }
  intros vs r. destruct vs as [|v vs]; [apply ret_ok|]. unfold Polygon2D_get_rectangle_clipped_polygon.
  assert (LN : forall p n, F_is_inf (@nlit F (NumF L) n 1) = false -> returns (@Line2D_of_angle F (NumF L) p (AN (@nlit F (NumF L) n 1)))) by (intros; now apply line_angle_ret).
  apply ret_bind; [apply LN; reflexivity|]. intros l1 _. apply ret_bind; [apply ret_clip|]. intros c1 _. apply ret_bind; [apply LN; reflexivity|]. intros l2 _. apply ret_bind; [apply ret_clip|]. intros c2 _.
  apply ret_bind; [apply LN; reflexivity|]. intros l3 _. apply ret_bind; [apply ret_clip|]. intros c3 _. apply ret_bind; [apply LN; reflexivity|]. intros l4 _. apply ret_clip.
Qed.

(** ** Squares by pow *)
(** What is needed of pow(x, 2): never negative, and finite for a finite x of at most 2^501. *)
Definition pow_sane (L : libm) : Prop := forall x : F, nosign (lm_pow L x (F_of_Z 2)) /\ (is_finite x = true -> Rabs (B2R x) <= bpow radix2 501 -> is_finite (lm_pow L x (F_of_Z 2)) = true).
(** not a finite number above 2^j: at most 2^j, or infinite, or NaN *)
Definition tame (j : Z) (x : F) : Prop := is_finite x = true -> Rabs (B2R x) <= bpow radix2 j.
Definition vtame (j : Z) (v : vec F) : Prop := tame j (vx v) /\ tame j (vy v).
Lemma powi_gives L x : pow_sane L -> tame 501 x -> gives nosign (@npowi F (NumF L) x 2).
Proof.
  intros P T. destruct (P x) as [P1 P2]. exists (lm_pow L x (F_of_Z 2)). split; [|exact P1]. cbn [npowi NumF]. unfold F_powi. cbv zeta. change (is_finite (F_of_Z 2)) with true. cbv iota. destruct (is_finite x) eqn:Fx; [|reflexivity].
  specialize (P2 eq_refl (T Fx)). destruct (lm_pow L x (F_of_Z 2)); try discriminate; reflexivity.
Qed.
Lemma tame_sub x y : tame 500 x -> tame 500 y -> tame 501 (Bminus mode_NE x y).
Proof.
  intros X Y H. assert (Fx : is_finite x = true) by (destruct x as [s|s| |s m e B], y as [s'|s'| |s' m' e' B']; try reflexivity; try discriminate; try (destruct s); try (destruct s'); try discriminate; try reflexivity).
  assert (Fy : is_finite y = true) by (destruct x as [s|s| |s m e B], y as [s'|s'| |s' m' e' B']; try reflexivity; try discriminate; try (destruct s); try (destruct s'); try discriminate; try reflexivity).
  destruct (calm_sub 500 x y ltac:(lia)) as [N|[_ N]]; [right; split; auto|right; split; auto|rewrite N in H; discriminate|exact N].
Qed.
Lemma dist2_gives L a b : pow_sane L -> vtame 500 a -> vtame 500 b -> gives notneg (@Vector2D_dist2 F (NumF L) a b).
Proof.
  intros P [A1 A2] [B1 B2]. apply gives_bind with nosign; [apply powi_gives; [exact P|now apply tame_sub]|]. intros p HP. apply gives_bind with nosign; [apply powi_gives; [exact P|now apply tame_sub]|]. intros q HQ. apply gives_ok. now apply notneg_add.
Qed.
Lemma dist_ret L a b : pow_sane L -> vtame 500 a -> vtame 500 b -> returns (@Vector2D_dist F (NumF L) a b).
Proof. intros P A B. apply rgives_bind with notneg; [now apply dist2_gives|]. intros d D. now apply ret_sqrt. Qed.
Definition stame (s : seg F) : Prop := vtame 500 (s_origin s) /\ vtame 500 (s_terminal s).
Lemma dist_point_ret L s p : pow_sane L -> stame s -> vtame 500 p -> returns (@Segment2D_dist_point F (NumF L) s p).
Proof.
  intros P [S1 S2] V. apply ret_bind; [now apply dist_ret|]. intros len _. ret_if; [now apply dist_ret|]. cbv zeta. ret_if.
  - apply ret_bind; [apply ret_div; exact Heqb|]. intros; apply ret_ok.
  - apply rgives_bind with notneg; [now apply dist2_gives|]. intros d1 D1. apply rgives_bind with notneg; [now apply dist2_gives|]. intros d2 D2. apply ret_sqrt. unfold nmin. match goal with |- context [if ?b then _ else _] => destruct b end; assumption.
Qed.
Lemma dist_seg_ret L s o : pow_sane L -> stame s -> stame o -> returns (@Segment2D_dist_seg F (NumF L) s o).
Proof.
  intros P S O. unfold Segment2D_dist_seg. ret_if; [apply ret_ok|]. pose proof S as [S1 S2]. pose proof O as [O1 O2]. apply ret_bind; [now apply dist_point_ret|]. intros d1 _. apply ret_bind; [now apply dist_point_ret|]. intros d2 _. apply ret_bind; [now apply dist_point_ret|]. intros d3 _. apply ret_bind; [now apply dist_point_ret|]. intros; apply ret_ok.
Qed.
Lemma dist_loop_ret L p es m : pow_sane L -> vtame 500 p -> (forall e, In e es -> vtame 500 (fst e) /\ vtame 500 (snd e)) -> returns (@dist_loop F (NumF L) p es m).
Proof.
  intros P V. revert m. induction es as [|[a b] es IH]; intros m H; cbn [dist_loop]; [apply ret_ok|]. apply ret_bind; [apply dist_point_ret; [exact P| |exact V]; apply (H (a, b)); now left|]. intros d _. apply IH. intros e He. apply H. now right.
Qed.
Lemma open_pairs_in {A} (P : A -> Prop) l : Forall P l -> forall e, In e (open_pairs l) -> P (fst e) /\ P (snd e).
Proof.
  induction 1 as [|a l Ha Hl IH]; intros e He; [destruct He|]. destruct l as [|b l]; [destruct He|]. cbn [open_pairs] in He. destruct He as [<-|He]; [|now apply IH]. inversion Hl; subst. now split.
Qed.
Lemma poly_dist_ret L vs p c : pow_sane L -> Forall (vtame 500) vs -> vtame 500 p -> returns (@Polygon2D_dist F (NumF L) vs p c).
Proof.
  intros P V X. assert (LP : forall e, In e (open_pairs vs) -> vtame 500 (fst e) /\ vtame 500 (snd e)) by now apply open_pairs_in.
  assert (IN : returns (if c then @Polygon2D_contains F (NumF L) vs p true else Ok false)) by (destruct c; [apply ret_contains|apply ret_ok]).
  assert (LL : forall m, returns (@dist_loop F (NumF L) p (open_pairs vs) m)) by (intros; now apply dist_loop_ret).
  destruct vs as [|v [|w vs]].
  - apply ret_bind; [exact IN|]. intros [] _; [apply ret_ok|]. apply ret_bind; [apply LL|]. intros; apply ret_ok.
  - apply ret_bind; [apply ret_r|]. intros; apply ret_ok.
  - unfold Polygon2D_dist. apply ret_bind; [exact IN|]. intros [] _; [apply ret_ok|]. apply ret_bind; [apply LL|]. intros m _. destruct vs as [|z vs]; [apply ret_ok|]. apply dist_loop_ret; [exact P|exact X|]. intros e [<-|[]]. cbn [fst snd]. rewrite Forall_forall in V.
    split; [|apply V; now left]. apply V. assert (NE : v :: w :: z :: vs <> []) by discriminate. rewrite (app_removelast_last v NE) at 2. apply in_or_app. right. now left.
Qed.
(** C175: with a sane pow, distances and containment raise for no coordinates except finite ones beyond 2^500. *)
Theorem C175_distances_F : forall (L : libm), pow_sane L ->
  (forall a b, vtame 500 a -> vtame 500 b -> returns (@Vector2D_dist2 F (NumF L) a b) /\ returns (@Vector2D_dist F (NumF L) a b)) /\
  (forall s p, stame s -> vtame 500 p -> returns (@Segment2D_length F (NumF L) s) /\ returns (@Segment2D_dist F (NumF L) s (VVec p)) /\ returns (@Segment2D_farthest_dist F (NumF L) s p)) /\
  (forall s o, stame s -> stame o -> returns (@Segment2D_dist F (NumF L) s (VSeg o))) /\
  (forall c p, vtame 500 (c_center c) -> vtame 500 p -> returns (@Circle2D_contains F (NumF L) c p)) /\
  (forall vs p c, Forall (vtame 500) vs -> vtame 500 p -> returns (@Polygon2D_dist F (NumF L) vs p c)).
Proof.
  intros L P. split; [|split; [|split; [|split]]].
  - intros a b A B. split; [apply gives_ret with notneg; now apply dist2_gives|now apply dist_ret].
  - intros s p S V. split; [destruct S; now apply dist_ret|]. split; [now apply dist_point_ret|]. destruct S as [S1 S2].
    apply rgives_bind with notneg; [now apply dist2_gives|]. intros d1 D1. apply rgives_bind with notneg; [now apply dist2_gives|]. intros d2 D2. apply ret_sqrt. unfold nmax. match goal with |- context [if ?b then _ else _] => destruct b end; assumption.
  - intros s o S O. now apply dist_seg_ret.
  - intros c p C V. apply rgives_bind with notneg; [now apply dist2_gives|]. intros; apply ret_ok.
  - intros vs p c. now apply poly_dist_ret.
Qed.

(** ** Circles *)
Definition vbound (j : Z) (v : vec F) : Prop := fbound j (vx v) /\ fbound j (vy v).
Lemma bound_calm j x : fbound j x -> calm j x.
Proof. intros H. now right. Qed.
Lemma fb_up j k x : (j <= k)%Z -> fbound j x -> fbound k x.
Proof. intros H [F1 F2]. split; [exact F1|]. eapply Rle_trans; [exact F2|now apply bpow_le]. Qed.
Lemma fb_tame j k x : (j <= k)%Z -> fbound j x -> tame k x.
Proof. intros H X _. now apply (fb_up j k x H). Qed.
Lemma calm_bound j x : is_finite x = true -> calm j x -> fbound j x.
Proof. intros Fx [->|H]; [discriminate|exact H]. Qed.
Lemma fb_add j x y : (-900 <= j <= 1010)%Z -> fbound j x -> fbound j y -> fbound (j + 1) (Bplus mode_NE x y).
Proof.
  intros J [F1 F2] [G1 G2]. assert (B : Rabs (B2R x + B2R y) <= bpow radix2 (j + 1)). { eapply Rle_trans; [apply Rabs_triang|]. rewrite Z.add_comm, bp2. lra. }
  destruct (rnd_err (B2R x + B2R y) (j + 1) ltac:(lia) B) as [_ E]. destruct (F_add x y F1 G1) as [S1 S2]; [apply (fin_lt (j + 1)); [lia|exact E]|]. split; [exact S2|]. now rewrite S1.
Qed.
Lemma fb_sub j x y : (-900 <= j <= 1010)%Z -> fbound j x -> fbound j y -> fbound (j + 1) (Bminus mode_NE x y).
Proof.
  intros J [F1 F2] [G1 G2]. assert (B : Rabs (B2R x - B2R y) <= bpow radix2 (j + 1)). { unfold Rminus. eapply Rle_trans; [apply Rabs_triang|]. rewrite Rabs_Ropp, Z.add_comm, bp2. lra. }
  destruct (rnd_err (B2R x - B2R y) (j + 1) ltac:(lia) B) as [_ E]. destruct (F_sub x y F1 G1) as [S1 S2]; [apply (fin_lt (j + 1)); [lia|exact E]|]. split; [exact S2|]. now rewrite S1.
Qed.
Lemma fb_mul j k x y : (-900 <= j + k <= 1010)%Z -> fbound j x -> fbound k y -> fbound (j + k) (Bmult mode_NE x y).
Proof.
  intros J [F1 F2] [G1 G2]. assert (B : Rabs (B2R x * B2R y) <= bpow radix2 (j + k)). { rewrite Rabs_mult, bpow_plus. apply Rmult_le_compat; try apply Rabs_pos; assumption. }
  destruct (rnd_err (B2R x * B2R y) (j + k) ltac:(lia) B) as [_ E]. destruct (F_mul x y F1 G1) as [S1 S2]; [apply (fin_lt (j + k)); [lia|exact E]|]. split; [exact S2|]. now rewrite S1.
Qed.
Lemma fb_div j k x y : (-900 <= j - k <= 1010)%Z -> fbound j x -> is_finite y = true -> bpow radix2 k <= Rabs (B2R y) -> fbound (j - k) (Bdiv mode_NE x y).
Proof.
  intros J [F1 F2] G1 G2. assert (K := bpow_gt_0 radix2 k). assert (NZ : B2R y <> 0) by (intros E; rewrite E, Rabs_R0 in G2; lra).
  assert (B : Rabs (B2R x / B2R y) <= bpow radix2 (j - k)).
  { unfold Rdiv. rewrite Rabs_mult, Rabs_inv. unfold Zminus. rewrite bpow_plus, bpow_opp. apply Rmult_le_compat; [apply Rabs_pos|left; apply Rinv_0_lt_compat; lra|exact F2|apply Rinv_le; lra]. }
  destruct (rnd_err (B2R x / B2R y) (j - k) ltac:(lia) B) as [_ E]. destruct (F_quot x y F1 NZ) as [S1 S2]; [apply (fin_lt (j - k)); [lia|exact E]|]. split; [exact S2|]. now rewrite S1.
Qed.
Lemma fb_neg j x : fbound j x -> fbound j (Bopp x).
Proof. intros [F1 F2]. unfold fbound. now rewrite is_finite_Bopp, B2R_Bopp, Rabs_Ropp. Qed.
Lemma not_below (x e : F) : is_finite x = true -> is_finite e = true -> Bltb (Babs x) e = false -> B2R e <= Rabs (B2R x).
Proof.
  intros X E H. rewrite ltb_F in H; [|now rewrite is_finite_Babs|exact E]. rewrite B2R_Babs in H. destruct (Rlt_bool_spec (Rabs (B2R x)) (B2R e)) as [K|K]; [discriminate|exact K].
Qed.
Lemma eps_big L y : is_finite y = true -> @nltb F (NumF L) (@nabs F (NumF L) y) (@EPSILON F (NumF L)) = false -> bpow radix2 (-20) <= Rabs (B2R y).
Proof. intros Fy H. destruct (P_LineF.eps_F L) as [E1 E2]. apply (not_below y _ Fy E1) in H. change (bpow radix2 (-20)) with (/ 1048576). lra. Qed.
Lemma ten_big L y : is_finite y = true -> @nltb F (NumF L) (@nabs F (NumF L) y) (@nlit F (NumF L) 1 10000000000) = false -> bpow radix2 (-34) <= Rabs (B2R y).
Proof. intros Fy H. destruct (ten_lit L) as [E1 E2]. apply (not_below y _ Fy E1) in H. change (bpow radix2 (-34)) with (/ 17179869184). lra. Qed.
(** a number that is NaN, +infinity, or finite and at least 1 *)
Definition from_one (x : F) : Prop := is_finite x = true /\ 1 <= B2R x \/ x = B754_infinity false \/ x = B754_nan.
Lemma one_plus (x : F) : from_one (Bplus mode_NE (F_of_Z 1) (Bmult mode_NE x x)).
Proof.
  assert (N := nosign_mul x). destruct (F_of_Z_exact 1 eq_refl) as [E1 E2]. set (s := Bmult mode_NE x x) in *. destruct (is_finite s) eqn:Fs.
  - pose proof (Bplus_correct 53 1024 _ _ mode_NE (F_of_Z 1) s E2 Fs) as C. change (round radix2 (SpecFloat.fexp 53 1024) (round_mode mode_NE) (B2R (F_of_Z 1) + B2R s)) with (rnd64 (B2R (F_of_Z 1) + B2R s)) in C.
    pose proof (nosign_pos _ N Fs) as P. rewrite E1 in C. destruct (Rlt_or_le (Rabs (rnd64 (1 + B2R s))) (bpow radix2 1024)) as [H|H].
    + rewrite Rlt_bool_true in C by exact H. destruct C as (C1 & C2 & _). left. split; [exact C2|]. rewrite C1. apply Rle_trans with (rnd64 (bpow radix2 0)); [rewrite rnd_id by (apply fmt_bpow; lia); change (bpow radix2 0) with 1; lra|]. apply rnd_le. change (bpow radix2 0) with 1. lra.
    + rewrite Rlt_bool_false in C by exact H. destruct C as [C _]. right; left. destruct (Bplus mode_NE (F_of_Z 1) s) as [s'|s'| |s' m e B]; cbn in C; try discriminate; injection C as C; try discriminate. now rewrite C.
  - destruct s as [z|z| |z m e B]; try discriminate; [|right; right; reflexivity]. destruct N as [N|N]; [discriminate|]. cbn in N. rewrite N. right; left; reflexivity.
Qed.
Lemma from_one_zero x : from_one x -> F_is_zero x = false.
Proof.
  intros H. apply not_true_iff_false. rewrite zero_iff. intros [s ->]. destruct H as [[_ H]|[H|H]]; try discriminate. cbn in H. lra.
Qed.
Lemma from_one_double x : from_one x -> F_is_zero (Bmult mode_NE (F_of_Z 2) x) = false.
Proof.
  intros [[H1 H2]|[-> | ->]]; [|reflexivity|reflexivity]. destruct (F_of_Z_exact 2 eq_refl) as [E1 E2]. apply not_true_iff_false. rewrite zero_iff. intros [z Z].
  pose proof (Bmult_correct 53 1024 _ _ mode_NE (F_of_Z 2) x) as C. change (round radix2 (SpecFloat.fexp 53 1024) (round_mode mode_NE) (B2R (F_of_Z 2) * B2R x)) with (rnd64 (B2R (F_of_Z 2) * B2R x)) in C. rewrite E1 in C.
  destruct (Rlt_or_le (Rabs (rnd64 (2 * B2R x))) (bpow radix2 1024)) as [H|H].
  - rewrite Rlt_bool_true in C by exact H. destruct C as [C _]. rewrite Z in C. change (B2R (B754_zero z)) with 0 in C. assert (2 <= rnd64 (2 * B2R x)); [|lra]. apply Rle_trans with (rnd64 (bpow radix2 1)); [rewrite rnd_id by (apply fmt_bpow; lia); change (bpow radix2 1) with 2; lra|]. apply rnd_le. change (bpow radix2 1) with 2. lra.
  - rewrite Rlt_bool_false in C by exact H. rewrite Z in C. cbn in C. discriminate.
Qed.
Lemma quad_ret L a b c : from_one a -> returns (@quadratic_f F (NumF L) a b c).
Proof.
  intros A. unfold quadratic_f. cbv zeta. ret_if. { exfalso. assert (Z : F_is_zero a = true) by exact Heqb0. rewrite from_one_zero in Z by exact A. discriminate. }
  assert (Z : F_is_zero (@nmul F (NumF L) (@nlit F (NumF L) 2 1) a) = false) by now apply from_one_double.
  ret_if; [apply ret_bind; [now apply ret_div|]; intros; apply ret_ok|]. ret_if; [apply ret_ok|]. apply ret_bind; [apply ret_sqrt; exact Heqb2|]. intros d _. apply ret_bind; [now apply ret_div|]. intros s1 _. apply ret_bind; [now apply ret_div|]. intros; apply ret_ok.
Qed.
Definition circle_bound (j : Z) (c : circle F) : Prop := vbound j (c_center c) /\ fbound j (c_radius c).
Lemma circ_line_ret L c l : pow_sane L -> circle_bound 400 c -> is_finite (l_a l) = true -> is_finite (l_b l) = true -> fbound 450 (l_c l) -> returns (@Circle2D_intersection_line F (NumF L) c l).
Proof.
  intros P [[C1 C2] C3] LA LB LC. assert (PW : forall x, tame 501 x -> returns (@npowi F (NumF L) x 2)) by (intros x X; apply gives_ret with nosign; now apply powi_gives).
  assert (Q : forall y x, is_finite y = true -> @nltb F (NumF L) (@nabs F (NumF L) y) (@EPSILON F (NumF L)) = false -> fbound 400 x -> exists q, @ndiv F (NumF L) (l_c l) y = Ok q /\ tame 501 (@nadd F (NumF L) q x)).
  { intros y x Y1 Y2 X. exists (Bdiv mode_NE (l_c l) y). split; [cbn [ndiv NumF]; unfold F_div; now rewrite (eps_nonzero L y Y2)|].
    apply (fb_tame (470 + 1)); [lia|]. apply fb_add; [lia| |apply (fb_up 400); [lia|exact X]]. apply (fb_div 450 (-20)); [lia|exact LC|exact Y1|now apply (eps_big L)]. }
  unfold Circle2D_intersection_line. ret_if.
  - ret_if; [apply ret_ok|]. apply ret_bind; [apply PW, (fb_tame 400); [lia|exact C1]|]. intros px _. destruct (Q _ _ LB Heqb0 C2) as (q & EQ & TQ). rewrite EQ. cbn [bind]. apply ret_bind; [now apply PW|]. intros py _. apply ret_bind; [apply PW, (fb_tame 400); [lia|exact C3]|]. intros pr _.
    apply ret_bind; [apply quad_ret; left; destruct (F_of_Z_exact 1 eq_refl) as [E1 E2]; split; [exact E2|]; change (@nlit F (NumF L) 1 1) with (F_of_Z 1); rewrite E1; lra|]. intros [[s1 s2]|] _; [|apply ret_ok]. apply ret_bind; [apply ret_div, (eps_nonzero L), Heqb0|]. intros; apply ret_ok.
  - apply ret_bind; [apply ret_div, (eps_nonzero L), Heqb|]. intros b_a _. destruct (Q _ _ LA Heqb C1) as (q & EQ & TQ). rewrite EQ. cbn [bind]. cbv zeta. apply ret_bind; [now apply PW|]. intros p1 _. apply ret_bind; [apply PW, (fb_tame 400); [lia|exact C2]|]. intros p2 _. apply ret_bind; [apply PW, (fb_tame 400); [lia|exact C3]|]. intros p3 _.
    apply ret_bind; [apply quad_ret, one_plus|]. intros [[s1 s2]|] _; [|apply ret_ok]. apply ret_bind; [apply ret_get_x|]. intros x1 _. apply ret_bind; [apply ret_get_x|]. intros; apply ret_ok.
Qed.
(** the lines through two points within 2^100, and the perpendicular bisectors *)
Definition line_bound (l : line F) : Prop := fbound 110 (l_a l) /\ fbound 110 (l_b l) /\ fbound 230 (l_c l).
Ltac fb := first [apply fb_neg; fb | (eapply fb_up; [|apply (fb_add 100)]; [lia|lia|fb|fb]) | assumption].
Lemma points_bound L p q : vbound 101 p -> vbound 101 q -> line_bound (@Line2D_of_points F (NumF L) p q).
Proof.
  intros [P1 P2] [Q1 Q2]. unfold Line2D_of_points. cbv zeta. cbn [nneg nsub nmul NumF].
  assert (A : fbound 110 (Bopp (Bminus mode_NE (vy q) (vy p)))) by (apply fb_neg, (fb_up (101 + 1)); [lia|]; now apply fb_sub). assert (B : fbound 110 (Bminus mode_NE (vx q) (vx p))) by (apply (fb_up (101 + 1)); [lia|]; now apply fb_sub).
  split; [exact A|]. split; [exact B|]. cbn [l_c]. apply (fb_up (211 + 1)); [lia|]. apply fb_sub; [lia| |]; apply (fb_mul 110 101); try lia; try assumption. now apply fb_neg.
Qed.
Lemma lit_one L : fbound 0 (@nlit F (NumF L) 1 1).
Proof. change (@nlit F (NumF L) 1 1) with (F_of_Z 1). apply fbound_Z; lia. Qed.
Lemma bisector_bound L p q : vbound 100 p -> vbound 100 q -> line_bound (@Line2D_perpendicular_bisector F (NumF L) p q).
Proof.
  intros P Q. pose proof P as [P1 P2]. pose proof Q as [Q1 Q2]. unfold Line2D_perpendicular_bisector. match goal with |- context [if ?b then _ else _] => destruct b end.
  - apply points_bound; [split; (eapply fb_up; [|eassumption]; lia)|]. split; cbn [vx vy V]; [|apply (fb_up 100); [lia|exact Q2]]. apply (fb_add 100); [lia|exact P1|]. apply (fb_up 0); [lia|apply lit_one].
  - cbv zeta. cbn [nadd nsub nmul NumF]. assert (A : fbound 110 (Bminus mode_NE (vx q) (vx p))) by (apply (fb_up (100 + 1)); [lia|]; now apply fb_sub). assert (B : fbound 110 (Bminus mode_NE (vy q) (vy p))) by (apply (fb_up (100 + 1)); [lia|]; now apply fb_sub).
    split; [exact A|]. split; [exact B|]. cbn [l_c]. destruct (mhalf_lit L) as [M1 M2]. apply (fb_up (203 + 0)); [lia|]. apply fb_mul; [lia| |split; [exact M1|rewrite M2, Rabs_Ropp, Rabs_pos_eq by lra; change (bpow radix2 0) with 1; lra]].
    assert (SQ : forall x, fbound 100 x -> fbound 200 (Bmult mode_NE x x)) by (intros x X; apply (fb_mul 100 100); [lia|exact X|exact X]).
    apply (fb_sub 202); [lia| |apply (fb_up 200); [lia|now apply SQ]]. apply (fb_add 201); [lia| |apply (fb_up 200); [lia|now apply SQ]]. apply (fb_sub 200); [lia|now apply SQ|now apply SQ].
Qed.
Lemma zero_vec L : vbound 400 (@Vector2D_invalid F (NumF L)).
Proof. unfold Vector2D_invalid, vbound. cbn [vx vy]. change (@nlit F (NumF L) 0 1) with (F_of_Z 0). split; (apply (fb_up 0); [lia|apply fbound_Z; lia]). Qed.
Lemma int_gives L l1 l2 : line_bound l1 -> line_bound l2 -> gives (vbound 400) (@Line2D_intersection F (NumF L) l1 l2).
Proof.
  intros (A1 & B1 & C1) (A2 & B2 & C2). unfold Line2D_intersection. cbv zeta. match goal with |- gives _ (if ?b then _ else _) => destruct b eqn:E end; [apply gives_ok, zero_vec|].
  set (tmp := @nsub F (NumF L) _ _) in *. assert (T : fbound 221 tmp) by (apply (fb_sub 220); [lia| |]; (apply (fb_mul 110 110); [lia|assumption|assumption])).
  assert (G := eps_big L tmp (proj1 T) E). assert (Z := eps_nonzero L tmp E). cbn [ndiv NumF]. unfold F_div. rewrite Z. cbn [bind]. apply gives_ok. split; cbn [vx vy V]; (apply (fb_up (341 - -20)); [lia|]; apply fb_div; [lia| |apply T|exact G]; apply (fb_sub 340); [lia| |]; (apply (fb_mul 110 230); [lia|assumption|assumption])).
Qed.
Lemma outer_bound L a b c : vbound 100 a -> vbound 100 b -> vbound 100 c -> fbound 203 (@Vector2D_outer_product F (NumF L) (@Vector2D_sub F (NumF L) b a) (@Vector2D_sub F (NumF L) c a)).
Proof.
  intros [A1 A2] [B1 B2] [C1 C2]. unfold Vector2D_outer_product, Vector2D_sub. cbn [vx vy V nsub nmul NumF]. apply (fb_sub 202); [lia| |]; (apply (fb_mul 101 101); [lia| |]; apply (fb_sub 100); try lia; assumption).
Qed.
Lemma circum_gives L a b c : vbound 100 a -> vbound 100 b -> vbound 100 c -> gives (vbound 400) (@tri_circumcenter F (NumF L) a b c).
Proof.
  intros A B C. assert (BX := bisector_bound L a b A B). assert (BY := bisector_bound L b c B C). assert (BZ := bisector_bound L c a C A).
  assert (X : gives (vbound 400) (@tri_circumcenter_formula F (NumF L) a b c)).
  { unfold tri_circumcenter_formula. cbv zeta. match goal with |- gives _ (if ?b then _ else _) => destruct b eqn:E end; [apply gives_ok, zero_vec|].
    assert (T := outer_bound L a b c A B C). set (tmp := @Vector2D_outer_product F (NumF L) _ _) in *. assert (G := ten_big L tmp (proj1 T) E). assert (Z := ten_nonzero L tmp E). cbn [ndiv NumF]. unfold F_div at 1. rewrite Z. cbn [bind]. apply gives_ok.
    destruct A as [A1 A2], B as [B1 B2], C as [C1 C2]. assert (HF : fbound 0 (@nlit F (NumF L) 1 2)) by (destruct (half_F L) as [H1 H2]; split; [exact H2|rewrite H1, Rabs_pos_eq by lra; change (bpow radix2 0) with 1; lra]).
    assert (I : fbound 34 (Bdiv mode_NE (@nlit F (NumF L) 1 2) tmp)) by (apply (fb_div 0 (-34)); [lia|exact HF|apply T|exact G]).
    assert (SB : forall x y, fbound 100 x -> fbound 100 y -> fbound 101 (Bminus mode_NE x y)) by (intros x y X Y; apply (fb_sub 100); [lia|exact X|exact Y]).
    unfold Vector2D_r2, Vector2D_sub. cbn [vx vy V nadd nsub nmul NumF].
    assert (R2 : forall x y, fbound 101 x -> fbound 101 y -> fbound 203 (Bplus mode_NE (Bmult mode_NE x x) (Bmult mode_NE y y))) by (intros x y X Y; apply (fb_add 202); [lia| |]; apply (fb_mul 101 101); try lia; assumption).
    split; cbn [vx vy V]; (apply (fb_up (339 + 1)); [lia|]; apply fb_add; [lia|apply (fb_up 100); [lia|assumption]|]; apply (fb_mul 34 305); [lia|exact I|]; apply (fb_sub 304); [lia| |]).
    - apply (fb_mul 203 101); [lia|apply R2; now apply SB|now apply SB].
    - apply (fb_mul 203 101); [lia|apply R2; now apply SB|now apply SB].
    - apply (fb_mul 101 203); [lia|now apply SB|apply R2; now apply SB].
    - apply (fb_mul 101 203); [lia|now apply SB|apply R2; now apply SB]. }
  unfold tri_circumcenter. cbv zeta. apply gives_bind with (vbound 400); [now apply int_gives|]. intros v _. destruct (negb (v_valid v)); [|exact X]. apply gives_bind with (vbound 400); [now apply int_gives|]. intros w W. destruct (v_valid w); [now apply gives_ok|]. apply gives_bind with (vbound 400); [now apply int_gives|]. intros z Z. destruct (v_valid z); [now apply gives_ok|exact X].
Qed.
Lemma seg_line_bound L s : vbound 100 (s_origin s) -> vbound 100 (s_terminal s) -> line_bound (@Segment2D_line F (NumF L) s).
Proof. intros [A1 A2] [B1 B2]. apply points_bound; split; (apply (fb_up 100); [lia|assumption]). Qed.
Lemma circle_up j k c : (j <= k)%Z -> circle_bound j c -> circle_bound k c.
Proof. intros H [[A B] C]. split; [split|]; (apply (fb_up j); [exact H|assumption]). Qed.
Lemma vb_tame j v : (j <= 500)%Z -> vbound j v -> vtame 500 v.
Proof. intros J [A B]. split; (apply (fb_tame j); [exact J|assumption]). Qed.
Lemma lit_two L : fbound 1 (@nlit F (NumF L) (-2) 1) /\ fbound 1 (@nlit F (NumF L) 2 1).
Proof. change (@nlit F (NumF L) (-2) 1) with (F_of_Z (-2)). change (@nlit F (NumF L) 2 1) with (F_of_Z 2). split; apply fbound_Z; lia. Qed.
Lemma ray_line_bound L o a : trig_sane L -> good_degree (a_degree a) -> vbound 100 o -> gives (fun l => is_finite (l_a l) = true /\ is_finite (l_b l) = true /\ fbound 450 (l_c l)) (@Line2D_of_angle F (NumF L) o (AA a)).
Proof.
  intros [S _] G [O1 O2]. cbn [Line2D_of_angle to_angle bind].
  assert (R : is_finite (Bmult mode_NE (a_degree a) (@DEG2RAD F (NumF L))) = true).
  { destruct G as [G1 G2]. destruct (deg2rad_const L) as (D1 & _ & D2). apply (fb_mul 8 (-5)); [lia| |split; [exact D1|exact D2]]. split; [exact G1|]. apply Rabs_le. change (bpow radix2 8) with 256. split; lra. }
  destruct (S _ R) as [S1 S2]. unfold AngleDeg_sin, AngleDeg_cos. cbn [nsin ncos nmul NumF]. rewrite math1_finite by apply S1. cbn [bind]. rewrite math1_finite by apply S2. cbn [bind]. apply gives_ok. cbn [l_a l_b l_c nneg nsub nmul NumF].
  set (sn := lm_sin L _) in *. set (cs := lm_cos L _) in *. split; [rewrite is_finite_Bopp; apply S1|]. split; [apply S2|].
  apply (fb_up (102 + 1)); [lia|]. apply fb_sub; [lia| |]; (apply (fb_mul 2 100); [lia| |assumption]); [now apply fb_neg, fb_neg|exact S2].
Qed.
(** C175: circles.  Coordinates and radii finite and at most 2^100 (the line: its constant at most 2^450). *)
Theorem C175_circles_F : forall (L : libm), pow_sane L ->
  (forall c l, circle_bound 400 c -> is_finite (l_a l) = true -> is_finite (l_b l) = true -> fbound 450 (l_c l) -> returns (@Circle2D_intersection F (NumF L) c (VLine l))) /\
  (forall c s, circle_bound 400 c -> vbound 100 (s_origin s) -> vbound 100 (s_terminal s) -> returns (@Circle2D_intersection F (NumF L) c (VSeg s))) /\
  (forall c r, trig_sane L -> circle_bound 400 c -> vbound 100 (ray_origin r) -> good_degree (a_degree (ray_dir r)) -> returns (@Circle2D_intersection F (NumF L) c (VRay r))) /\
  (forall c o, circle_bound 100 c -> circle_bound 100 o -> returns (@Circle2D_intersection F (NumF L) c (VCirc o))) /\
  (forall a b c, vbound 100 a -> vbound 100 b -> vbound 100 c -> returns (@Circle2D_circum_circle F (NumF L) a b c)) /\
  (forall p a b c, vbound 100 p -> vbound 100 a -> vbound 100 b -> vbound 100 c -> returns (@Circle2D_circum_circle_contains F (NumF L) p a b c)).
Proof.
  intros L P. split; [|split; [|split; [|split; [|split]]]].
  - intros c l C A B D. now apply circ_line_ret.
  - intros c s C A B. destruct (seg_line_bound L s A B) as (L1 & L2 & L3). apply ret_bind; [|intros sols _; apply ret_filter; intros; apply ret_ok]. apply circ_line_ret; [exact P|exact C|apply L1|apply L2|apply (fb_up 230); [lia|exact L3]].
  - intros c r S C O D. cbn [Circle2D_intersection]. unfold Circle2D_intersection_ray. assert (AO : angle_obj (ray_dir r)) by now right. unfold Ray2D_dir, AngleDeg_of_angle. rewrite degree_F_good by exact AO. cbn [bind]. unfold AngleDeg_of_num.
    destruct (normal_F L (a_degree (ray_dir r)) (proj1 D)) as (d & E & D1 & D2 & _). rewrite E. cbn [bind].
    apply rgives_bind with (fun l => is_finite (l_a l) = true /\ is_finite (l_b l) = true /\ fbound 450 (l_c l)); [apply ray_line_bound; [exact S|split; assumption|]|].
    { exact O. }
    intros l (L1 & L2 & L3). apply ret_bind; [now apply circ_line_ret|]. intros sols _. apply ret_filter. intros p. now apply right_dir_ret.
  - intros c o C O. cbn [Circle2D_intersection]. unfold Circle2D_intersection_circle. cbv zeta. apply ret_bind; [apply ret_hypot|]. intros cd _. ret_if; [apply ret_ok|]. pose proof C as [[C1 C2] C3]. pose proof O as [[O1 O2] O3]. destruct (lit_two L) as [M2 _].
    assert (SB : forall x y, fbound 100 x -> fbound 100 y -> fbound 102 (Bmult mode_NE (@nlit F (NumF L) (-2) 1) (Bminus mode_NE x y))) by (intros x y X Y; apply (fb_mul 1 101); [lia|exact M2|apply (fb_sub 100); [lia|exact X|exact Y]]).
    assert (SQ : forall x, fbound 100 x -> fbound 200 (Bmult mode_NE x x)) by (intros x X; apply (fb_mul 100 100); [lia|exact X|exact X]).
    apply circ_line_ret; [exact P|apply (circle_up 100); [lia|exact C]|cbn [l_a]; apply (SB _ _ O1 C1)|cbn [l_b]; apply (SB _ _ O2 C2)|]. cbn [l_c]. unfold Vector2D_r2. cbn [nadd nsub nmul NumF]. apply (fb_up (203 + 1)); [lia|].
    apply fb_add; [lia| |apply (fb_up 200); [lia|now apply SQ]]. apply (fb_sub 202); [lia| |apply (fb_up (200 + 1)); [lia|apply fb_add; [lia|now apply SQ|now apply SQ]]]. apply (fb_sub 201); [lia|apply (fb_add 200); [lia|now apply SQ|now apply SQ]|apply (fb_up 200); [lia|now apply SQ]].
  - intros a b c A B C. unfold Circle2D_circum_circle. apply rgives_bind with (vbound 400); [now apply circum_gives|]. intros v V. ret_if; [apply ret_ok|]. apply ret_bind; [apply dist_ret; [exact P|apply (vb_tame 400); [lia|exact V]|apply (vb_tame 100); [lia|exact A]]|]. intros; apply ret_ok.
  - intros p a b c PB A B C. unfold Circle2D_circum_circle_contains. cbv zeta. ret_if; [apply ret_ok|]. destruct (lit_two L) as [_ M2]. pose proof A as [A1 A2]. pose proof B as [B1 B2]. pose proof C as [C1 C2].
    assert (SB : forall x y, fbound 100 x -> fbound 100 y -> fbound 101 (Bminus mode_NE x y)) by (intros x y X Y; apply (fb_sub 100); [lia|exact X|exact Y]). assert (SA : forall x y, fbound 100 x -> fbound 100 y -> fbound 101 (Bplus mode_NE x y)) by (intros x y X Y; apply (fb_add 100); [lia|exact X|exact Y]).
    assert (P2 : forall x y, fbound 101 x -> fbound 101 y -> fbound 202 (Bmult mode_NE x y)) by (intros x y X Y; apply (fb_mul 101 101); [lia|exact X|exact Y]).
    cbn [nadd nsub nmul ndiv NumF] in *. match type of Heqb0 with context [nabs ?t] => set (area := t) in * end.
    assert (T : fbound 204 area) by (apply (fb_mul 1 203); [lia|exact M2|]; apply (fb_sub 202); [lia| |]; apply P2; now apply SB).
    assert (G := ten_big L area (proj1 T) Heqb0). assert (Z := ten_nonzero L area Heqb0).
    assert (AV : forall x y z w, fbound 101 x -> fbound 101 y -> fbound 101 z -> fbound 101 w -> fbound 203 (Bplus mode_NE (Bmult mode_NE x z) (Bmult mode_NE y w))) by (intros; apply (fb_add 202); [lia|now apply P2|now apply P2]).
    assert (PP : forall x y, fbound 101 x -> fbound 203 y -> fbound 304 (Bmult mode_NE x y)) by (intros x y X Y; apply (fb_mul 101 203); [lia|exact X|exact Y]).
    unfold F_div. rewrite Z. cbn [bind].
    assert (VV : forall x y z w, fbound 101 x -> fbound 203 y -> fbound 101 z -> fbound 203 w -> fbound 400 (Bdiv mode_NE (Bminus mode_NE (Bmult mode_NE x y) (Bmult mode_NE z w)) area)).
    { intros x y z w X Y Z' W. apply (fb_up (305 - -34)); [lia|]. apply fb_div; [lia| |apply T|exact G]. apply (fb_sub 304); [lia|now apply PP|now apply PP]. }
    apply rgives_bind with notneg; [apply dist2_gives; [exact P| |apply (vb_tame 100); [lia|exact PB]]|intros d _; apply rgives_bind with notneg; [apply dist2_gives; [exact P| |apply (vb_tame 100); [lia|exact A]]|intros; apply ret_ok]];
      (apply (vb_tame 400); [lia|]; split; cbn [vx vy V]; apply VV; try (now apply SB); apply AV; now (apply SB || apply SA)).
Qed.

(** ** Convex hull *)
  Lemma min_lt L l i mp mi : (mi < i + List.length l)%nat -> (@min_loop F (NumF L) l i mp mi < i + List.length l)%nat.
  Proof.
    revert i mp mi. induction l as [|p l IH]; intros i mp mi H; cbn [min_loop List.length] in *; [exact H|]. replace (i + S (List.length l))%nat with (S i + List.length l)%nat in * by lia. match goal with |- context [if ?b then _ else _] => destruct b end; apply IH; lia.
  Qed.
Section HullSafe.
  Variable (L : libm) (pts : list (vec F)) (d : vec F).
  Hypothesis PS : pow_sane L.
  Hypothesis T : Forall (vtame 500) pts.
  Let n := List.length pts.
  Lemma nth_tame i : (i < n)%nat -> vtame 500 (nth i pts d).
  Proof. intros H. rewrite Forall_forall in T. apply T. now apply nth_In. Qed.
  Lemma scan_gives cur used is cand : (cur < n)%nat -> (cand < n)%nat -> (forall i, In i is -> (i < n)%nat) -> gives (fun c => (c < n)%nat) (@wrap_scan F (NumF L) pts (nth cur pts d) cur used is cand).
  Proof.
    intros Hu. revert cand. induction is as [|i is IH]; intros cand Hc Hi; cbn [wrap_scan]; [now apply gives_ok|]. assert (Hi' : forall j, In j is -> (j < n)%nat) by (intros; apply Hi; cbn; auto). assert (Hii : (i < n)%nat) by (apply Hi; cbn; auto).
    match goal with |- gives _ (if ?b then _ else _) => destruct b end; [now apply IH|]. rewrite (py_get_nth pts cand d Hc), (py_get_nth pts i d Hii). cbn [bind]. cbv zeta.
    match goal with |- gives _ (if ?b then _ else _) => destruct b end; [now apply IH|]. match goal with |- gives _ (if ?b then _ else _) => destruct b end; [|now apply IH].
    apply gives_bind with notneg; [apply dist2_gives; [exact PS|now apply nth_tame|now apply nth_tame]|]. intros df _. apply gives_bind with notneg; [apply dist2_gives; [exact PS|now apply nth_tame|now apply nth_tame]|]. intros ds _. apply IH; [|exact Hi']. match goal with |- ((if ?b then _ else _) < _)%nat => destruct b end; assumption.
  Qed.
  Lemma cand_lt cur used : (0 < n)%nat -> (first_candidate n cur used < n)%nat.
  Proof. intros H. unfold first_candidate. destruct (find _ (seq 0 n)) as [i|] eqn:E; [|exact H]. apply find_some in E. destruct E as [E _]. apply in_seq in E. lia. Qed.
  Lemma loop_gives fuel mi cur used verts : (cur < n)%nat -> Forall (fun v => In v pts) verts -> verts <> [] -> gives (fun vs => vs <> [] /\ Forall (fun v => In v pts) vs) (@wrap_loop F (NumF L) fuel pts mi cur used verts).
  Proof.
    revert cur used verts. induction fuel as [|fuel IH]; intros cur used verts Hc Hv Hn; cbn [wrap_loop]; [now apply gives_ok|]. rewrite (py_get_nth pts cur d Hc). cbn [bind]. cbv zeta. fold n.
    assert (C0 := cand_lt cur used ltac:(lia)). apply gives_bind with (fun c => (c < n)%nat); [apply scan_gives; [exact Hc|exact C0|]; intros i Hi; apply in_seq in Hi; lia|]. intros c C. rewrite (py_get_nth pts c d C). cbn [bind].
    assert (V' : Forall (fun v => In v pts) (verts ++ [nth c pts d])) by (apply Forall_app; split; [exact Hv|constructor; [now apply nth_In|constructor]]). assert (N' : verts ++ [nth c pts d] <> []) by (destruct verts; discriminate).
    match goal with |- gives _ (if ?b then _ else _) => destruct b end; [now apply gives_ok|now apply IH].
  Qed.
End HullSafe.
Lemma veq_refl L v : finv v -> @Vector2D_eq F (NumF L) v v = true.
Proof. intros H. rewrite veq_fin by assumption. unfold Vector2D_eq. rnum. rewrite !Req_bool_true by reflexivity. reflexivity. Qed.
Lemma edges_ret L vs : Forall finv vs -> returns (@build_edges F (NumF L) vs).
Proof.
  intros H. destruct vs as [|a l]; [apply ret_ok|]. rewrite build_edges_gen; [apply ret_ok|]. apply veq_refl. rewrite Forall_forall in H. apply H, last_in.
Qed.
Lemma direct_ret L pts ps acc : (forall ij, In ij ps -> (fst ij < List.length pts)%nat /\ (snd ij < List.length pts)%nat) -> Forall (fun v => In v pts) (fst acc) ->
  gives (fun r => Forall (fun v => In v pts) (fst r)) (fold_left (@direct_step F (NumF L) pts) ps (Ok acc)).
Proof.
  revert acc. induction ps as [|[i j] ps IH]; intros [vs es] H V; cbn [fold_left]; [now apply gives_ok|]. destruct (H (i, j) (or_introl eq_refl)) as [Hi Hj]. cbn [fst snd] in Hi, Hj, V.
  cbn [direct_step bind]. assert (d : vec F) by (destruct pts as [|v w]; [cbn in Hi; lia|exact v]). rewrite (py_get_nth pts i d Hi), (py_get_nth pts j d Hj). cbn [bind]. destruct (direct_scan _ _ _ _ _ _ _) as [valid lv].
  destruct valid; apply IH; try (intros ij Hij; apply H; now right); cbn [fst]; [|exact V]. apply Forall_app. split; [exact V|]. repeat constructor; now apply nth_In.
Qed.
Lemma pairs_lt n ij : In ij (direct_pairs n) -> (fst ij < n)%nat /\ (snd ij < n)%nat.
Proof. unfold direct_pairs. rewrite in_flat_map. intros (i & Hi & Hj). apply in_map_iff in Hj. destruct Hj as (j & <- & Hj). apply in_seq in Hi. apply in_seq in Hj. cbn [fst snd]. lia. Qed.
Section SortSafe.
  Variables (P : vec F -> Prop) (lt : vec F -> vec F -> res bool).
  Hypothesis LT : forall x y, P x -> P y -> returns (lt x y).
  Lemma pos_ret fuel l x lo hi : Forall P l -> P x -> (hi <= List.length l)%nat -> returns (@bin_insert_pos F lt fuel l x lo hi).
  Proof.
    intros HL HX. revert lo hi. induction fuel as [|fuel IH]; intros lo hi Hh; cbn [bin_insert_pos]; [apply ret_ok|]. destruct (Nat.ltb lo hi) eqn:E; [|apply ret_ok]. apply Nat.ltb_lt in E. cbv zeta.
    assert (M : (Nat.div (lo + hi) 2 < hi)%nat) by (apply Nat.div_lt_upper_bound; lia). destruct (nth_error l (Nat.div (lo + hi) 2)) as [y|] eqn:N; [|apply nth_error_None in N; lia].
    assert (HY : P y) by (rewrite Forall_forall in HL; apply HL; now apply nth_error_In in N). apply ret_bind; [now apply LT|]. intros [] _; apply IH; lia.
  Qed.
  Lemma bin_gives l rest : Forall P l -> Forall P rest -> gives (Forall P) (@bin_sort F lt l rest).
  Proof.
    intros HL HR. revert l HL. induction HR as [|x rest HX HR IH]; intros l HL; cbn [bin_sort]; [now apply gives_ok|]. destruct (pos_ret (S (List.length l)) l x 0 (List.length l) HL HX (le_n _)) as [pos E]. rewrite E. cbn [bind]. apply IH.
    rewrite Forall_forall in *. intros y Hy. apply in_app_or in Hy. destruct Hy as [Hy|[<-|Hy]]; [apply HL; rewrite <- (firstn_skipn pos l); apply in_or_app; now left|exact HX|apply HL; rewrite <- (firstn_skipn pos l); apply in_or_app; now right].
  Qed.
  Lemma run_gives desc prev l : P prev -> Forall P l -> gives (fun r => Forall P (fst r) /\ Forall P (snd r)) (@run_from F lt desc prev l).
  Proof.
    intros HP HL. revert prev HP. induction HL as [|x l HX HL IH]; intros prev HP; cbn [run_from]; [apply gives_ok; split; constructor|]. destruct (LT x prev HX HP) as [b E]. rewrite E. cbn [bind]. destruct (Bool.eqb b desc).
    - apply gives_bind with (fun r => Forall P (fst r) /\ Forall P (snd r)); [now apply IH|]. intros [run rest] [R1 R2]. apply gives_ok. split; [constructor; assumption|assumption].
    - apply gives_ok. split; [constructor|constructor; assumption].
  Qed.
  Lemma sort_gives l : Forall P l -> gives (Forall P) (@py_sort_small F lt l).
  Proof.
    intros HL. destruct l as [|x [|y l]]; cbn [py_sort_small]; [now apply gives_ok|now apply gives_ok|]. inversion HL as [|? ? HX HL1]; subst. inversion HL1 as [|? ? HY HL2]; subst. destruct (LT y x HY HX) as [b E]. rewrite E. cbn [bind].
    apply gives_bind with (fun r => Forall P (fst r) /\ Forall P (snd r)); [now apply run_gives|]. intros [run rest] [R1 R2]. cbn [fst snd] in R1, R2. assert (R : Forall P (x :: y :: run)) by (repeat constructor; assumption).
    apply bin_gives; [|exact R2]. destruct b; [|exact R]. now apply Forall_rev.
  Qed.
End SortSafe.
Lemma angle_lt_ret L x y : pow_sane L -> vtame 500 x -> vtame 500 y -> returns (@angle_lt F (NumF L) x y).
Proof.
  intros PS X Y. assert (Z : vtame 500 (V (@nlit F (NumF L) 0 1) (@nlit F (NumF L) 0 1))) by (apply (vb_tame 0); [lia|]; change (@nlit F (NumF L) 0 1) with (F_of_Z 0); split; apply fbound_Z; lia).
  apply ret_bind; [|intros; apply ret_ok]. unfold angle_sort_predicate. cbv zeta. ret_if; [apply ret_ok|]. ret_if; [|apply ret_ok]. apply rgives_bind with notneg; [now apply dist2_gives|]. intros dl _. apply rgives_bind with notneg; [now apply dist2_gives|]. intros dr _. ret_if; ret_if; apply ret_ok.
Qed.
(** C175: the gift-wrapping method raises for no list of finite points within 2^500, duplicates and collinear points
    included; the direct method with Python's sort for short lists for no list of points that are not finite beyond 2^500. *)
Theorem C175_hull_F : forall (L : libm) (h : hull F), pow_sane L ->
  (Forall (vbound 500) (h_input h) -> returns (@compute_wrapping_method F (NumF L) h)) /\
  (Forall (vtame 500) (h_input h) -> returns (@compute_direct_method F (NumF L) (@py_sort_small F (@angle_lt F (NumF L))) h)).
Proof.
  intros L h PS. split; intros H0.
  - unfold compute_wrapping_method. set (h0 := clear_results h). assert (H : Forall (vbound 500) (h_input h0)) by (unfold h0, clear_results; destruct (h_alias h); cbn [h_input]; [constructor|exact H0]). set (pts := h_input h0) in *. cbv zeta.
    assert (TM : Forall (vtame 500) pts) by (eapply Forall_impl; [|exact H]; intros v V; apply (vb_tame 500); [lia|exact V]). assert (FV : Forall finv pts) by (eapply Forall_impl; [|exact H]; intros v [V1 V2]; split; [apply V1|apply V2]).
    destruct pts as [|p0 pts'] eqn:EP; cbn [get_min_point_index]; [apply ret_ok|]. rewrite <- EP in *. ret_if; [apply ret_ok|]. assert (N : (0 < List.length pts)%nat) by (rewrite EP; cbn; lia).
    set (mi := @min_loop F (NumF L) pts 0 p0 0). assert (M : (mi < List.length pts)%nat) by (apply (min_lt L pts 0%nat p0 0%nat); lia). rewrite (py_get_nth pts mi p0 M). cbn [bind].
    apply rgives_bind with (fun vs => vs <> [] /\ Forall (fun v => In v pts) vs); [apply (loop_gives L pts p0 PS TM); [exact M|constructor; [now apply nth_In|constructor]|discriminate]|]. intros vs [_ VS]. apply ret_bind; [|intros; apply ret_ok]. apply edges_ret.
    rewrite Forall_forall in *. intros v Hv. apply FV. now apply VS.
  - unfold compute_direct_method. set (h0 := clear_results h). assert (H : Forall (vtame 500) (h_input h0)) by (unfold h0, clear_results; destruct (h_alias h); cbn [h_input]; [constructor|exact H0]). set (pts := h_input h0) in *. cbv zeta. ret_if; [apply ret_ok|].
    apply rgives_bind with (fun r => Forall (fun v => In v pts) (fst r)); [apply direct_ret; [intros ij; apply pairs_lt|constructor]|]. intros [vs es] V. cbn [fst] in V. destruct vs as [|v vs]; [apply ret_ok|]. apply rgives_bind with (Forall (vtame 500)); [|intros; apply ret_ok].
    apply sort_gives; [intros x y X Y; now apply angle_lt_ret|]. rewrite Forall_forall in *. intros w Hw. apply H. now apply V.
Qed.

(** ** The two ways a distance can raise *)
Lemma square_big (x : F) : is_finite x = true -> bpow radix2 (-500) <= Rabs (B2R x) -> let s := Bmult mode_NE x x in (is_finite s = true /\ bpow radix2 (-1000) <= B2R s) \/ s = B754_infinity false.
Proof.
  intros Fx H s. assert (K : bpow radix2 (-1000) <= B2R x * B2R x). { change (-1000)%Z with (-500 + -500)%Z. rewrite bpow_plus. replace (B2R x * B2R x) with (Rabs (B2R x) * Rabs (B2R x)) by (rewrite <- Rabs_mult; apply Rabs_pos_eq; nra). apply Rmult_le_compat; try apply bpow_ge_0; exact H. }
  pose proof (Bmult_correct 53 1024 _ _ mode_NE x x) as C. change (round radix2 (SpecFloat.fexp 53 1024) (round_mode mode_NE) (B2R x * B2R x)) with (rnd64 (B2R x * B2R x)) in C. fold s in C. destruct (Rlt_or_le (Rabs (rnd64 (B2R x * B2R x))) (bpow radix2 1024)) as [H1|H1].
  - rewrite Rlt_bool_true in C by exact H1. destruct C as (C1 & C2 & _). left. split; [rewrite C2, Fx; reflexivity|]. rewrite C1. rewrite <- (rnd_id (bpow radix2 (-1000))) by (apply fmt_bpow; lia). now apply rnd_le.
  - rewrite Rlt_bool_false in C by exact H1. rewrite xorb_nilpotent in C. right. destruct s as [z|z| |z m e B]; cbn in C; try discriminate; injection C as C; try discriminate. now rewrite C.
Qed.
(** the sum of a large square and another square, and its root *)
Definition well_positive (s : F) : Prop := (is_finite s = true /\ bpow radix2 (-1000) <= B2R s) \/ s = B754_infinity false \/ s = B754_nan.
Lemma pos_sign (s : F) : 0 < B2R s -> Bsign s = false.
Proof.
  destruct s as [z|z| |z m e B]; cbn [B2R]; intros H; try lra. destruct z; [|reflexivity]. exfalso. assert (F2R (Float radix2 (Zneg m) e) <= 0) by (apply F2R_le_0; cbn; lia). cbn [cond_Zopp Z.opp] in H. lra.
Qed.
Lemma sum_big (s t : F) : (is_finite s = true /\ bpow radix2 (-1000) <= B2R s) \/ s = B754_infinity false -> nosign t -> well_positive (Bplus mode_NE s t) /\ well_positive (Bplus mode_NE t s).
Proof.
  intros [[S1 S2] | ->] N.
  - destruct (is_finite t) eqn:Ft.
    + assert (P := nosign_pos _ N Ft). assert (G : forall a b : F, is_finite a = true -> is_finite b = true -> bpow radix2 (-1000) <= B2R a + B2R b -> 0 <= B2R a -> 0 <= B2R b -> Bsign a = false \/ Bsign b = false -> well_positive (Bplus mode_NE a b)).
      { intros a b Fa Fb H Pa Pb SG. pose proof (Bplus_correct 53 1024 _ _ mode_NE a b Fa Fb) as C. change (round radix2 (SpecFloat.fexp 53 1024) (round_mode mode_NE) (B2R a + B2R b)) with (rnd64 (B2R a + B2R b)) in C.
        destruct (Rlt_or_le (Rabs (rnd64 (B2R a + B2R b))) (bpow radix2 1024)) as [H1|H1].
        - rewrite Rlt_bool_true in C by exact H1. destruct C as (C1 & C2 & _). left. split; [exact C2|]. rewrite C1. rewrite <- (rnd_id (bpow radix2 (-1000))) by (apply fmt_bpow; lia). now apply rnd_le.
        - rewrite Rlt_bool_false in C by exact H1. destruct C as [C EQ]. right; left. assert (SA : Bsign a = false) by (destruct SG as [SG|SG]; [exact SG|congruence]). rewrite SA in C. destruct (Bplus mode_NE a b) as [z|z| |z m e B]; cbn in C; try discriminate; injection C as C; try discriminate. now rewrite C. }
      assert (SS : Bsign s = false) by (apply pos_sign; pose proof (bpow_gt_0 radix2 (-1000)); lra).
      pose proof (bpow_gt_0 radix2 (-1000)). split; apply G; auto; lra.
    + destruct t as [z|z| |z m e B]; try discriminate.
      * destruct N as [N|N]; [discriminate|]. cbn in N. subst z. split; right; left; destruct s as [z|z| |z m e B]; try discriminate; try (destruct z); reflexivity.
      * split; right; right; [destruct s as [z|z| |z m e B]; try discriminate; reflexivity|reflexivity].
  - destruct t as [z|z| |z m e B]; [split; right; left; reflexivity| |split; right; right; reflexivity|split; right; left; reflexivity]. destruct N as [N|N]; [discriminate|]. cbn in N. subst z. split; right; left; reflexivity.
Qed.
Lemma wp_nonzero s : well_positive s -> F_is_zero s = false.
Proof. intros H. apply not_true_iff_false. rewrite zero_iff. intros [z ->]. destruct H as [[_ H]|[H|H]]; try discriminate. change (B2R (B754_zero z)) with 0 in H. pose proof (bpow_gt_0 radix2 (-1000)). lra. Qed.
Lemma wp_root L s : well_positive s -> gives (fun r => F_is_zero r = false) (@nsqrt F (NumF L) s).
Proof.
  intros H. cbn [nsqrt NumF]. unfold F_sqrt. destruct H as [[F1 H]|[-> | ->]]; [|apply gives_ok; reflexivity|apply gives_ok; reflexivity].
  pose proof (bpow_gt_0 radix2 (-1000)) as K. destruct (F_of_Z_exact 0 eq_refl) as [Z1 Z2]. rewrite ltb_F by assumption. rewrite Z1, Rlt_bool_false by lra. apply gives_ok.
  pose proof (Bsqrt_correct 53 1024 _ _ mode_NE s) as (C1 & _ & _). apply not_true_iff_false. rewrite zero_iff. intros [z Z]. rewrite Z in C1. change (B2R (B754_zero z)) with 0 in C1. change (round radix2 (SpecFloat.fexp 53 1024) (round_mode mode_NE) (sqrt (B2R s))) with (rnd64 (sqrt (B2R s))) in C1.
  assert (Q : bpow radix2 (-500) <= rnd64 (sqrt (B2R s))); [|pose proof (bpow_gt_0 radix2 (-500)); lra]. rewrite <- (rnd_id (bpow radix2 (-500))) by (apply fmt_bpow; lia). apply rnd_le. apply Rsqr_incr_0_var; [|apply sqrt_pos]. rewrite Rsqr_sqrt by lra. unfold Rsqr. rewrite <- bpow_plus. exact H.
Qed.
(** C175: the distance to a line raises for no point at all if one of the line's coefficients a, b is a finite number of
    at least 2^-500 (the other one may be anything). *)
Theorem C175_line_dist_F : forall (L : libm) (l : line F) (p : vec F),
  (is_finite (l_a l) = true /\ bpow radix2 (-500) <= Rabs (B2R (l_a l))) \/ (is_finite (l_b l) = true /\ bpow radix2 (-500) <= Rabs (B2R (l_b l))) ->
  returns (@Line2D_dist F (NumF L) l p) /\ returns (@Line2D_dist2 F (NumF L) l p).
Proof.
  intros L l p H. assert (W : well_positive (Bplus mode_NE (Bmult mode_NE (l_a l) (l_a l)) (Bmult mode_NE (l_b l) (l_b l)))).
  { destruct H as [[H1 H2]|[H1 H2]]; [apply (sum_big _ _ (square_big _ H1 H2) (nosign_mul _))|apply (sum_big _ _ (square_big _ H1 H2) (nosign_mul _))]. }
  split.
  - apply rgives_bind with (fun r => F_is_zero r = false); [now apply (wp_root L)|]. intros s S. apply ret_bind; [now apply ret_div|]. intros; apply ret_ok.
  - apply ret_div. now apply wp_nonzero.
Qed.
(** C175: without that bound it can raise ZeroDivisionError for a proper line: a = 2^-600, b = c = 0 is the y axis,
    and a*a + b*b underflows to zero. *)
Theorem C175_line_dist_refuted : forall (L : libm) (p : vec F),
  let l := mkLine (Fd 1 (-600)) (F_of_Z 0) (F_of_Z 0) in
  is_finite (l_a l) = true /\ B2R (l_a l) <> 0 /\ @Line2D_dist F (NumF L) l p = Raise ZeroDivisionError.
Proof.
  intros L p l. split; [reflexivity|]. split.
  - assert (Z : F_is_zero (l_a l) = false) by (vm_compute; reflexivity). unfold F_is_zero in Z. destruct (F_of_Z_exact 0 eq_refl) as [Z1 Z2]. rewrite eqb_F in Z; [|reflexivity|exact Z2]. rewrite Z1 in Z. intros E. rewrite E, Req_bool_true in Z by reflexivity. discriminate.
  - unfold Line2D_dist. assert (Z : @nsqrt F (NumF L) (@nadd F (NumF L) (@nmul F (NumF L) (l_a l) (l_a l)) (@nmul F (NumF L) (l_b l) (l_b l))) = Ok (B754_zero false)) by reflexivity. rewrite Z. reflexivity.
Qed.
(** C175: and the point distance raises OverflowError for finite points 2^600 apart, whenever pow overflows there. *)
Theorem C175_dist_overflow_refuted : forall (L : libm), lm_pow L (Fd 1 600) (F_of_Z 2) = B754_infinity false ->
  let a := V (Fd 1 600) (F_of_Z 0) in let b := V (F_of_Z 0) (F_of_Z 0) in
  finv a /\ finv b /\ @Vector2D_dist F (NumF L) a b = Raise OverflowError /\ forall r, @Circle2D_contains F (NumF L) (mkCircle a r) b = Raise OverflowError.
Proof.
  intros L H a b. split; [now split|]. split; [now split|].
  assert (D : @Vector2D_dist2 F (NumF L) a b = Raise OverflowError).
  { unfold Vector2D_dist2. assert (E : @nsub F (NumF L) (vx a) (vx b) = Fd 1 600) by reflexivity. rewrite E. cbn [npowi NumF]. unfold F_powi. change (is_finite (F_of_Z 2)) with true. rewrite H. reflexivity. }
  split; [unfold Vector2D_dist; now rewrite D|]. intros r. unfold Circle2D_contains. cbn [c_center]. now rewrite D.
Qed.
Lemma libm_round_trig_sane : trig_sane libm_round.
Proof.
  assert (G : forall t k, (-100 <= k <= 100)%Z -> Rabs t <= bpow radix2 k -> fbound k (F_of_R t)).
  { intros t k K A. destruct (F_of_R_ok t) as [G1 G2]; [eapply Rle_trans; [exact A|apply bpow_le; lia]|]. split; [exact G1|]. rewrite G2. now apply rnd_err; [lia|]. }
  split.
  - intros x _. split; (apply G; [lia|]; change (bpow radix2 2) with 4; apply Rabs_le; pose proof (SIN_bound (B2R x)); pose proof (COS_bound (B2R x)); cbn [lm_sin lm_cos libm_round]; split; lra).
  - intros y x. right. apply (G _ 2%Z); [lia|]. pose proof (L_Trig.Ratan2_range (B2R y) (B2R x)) as RG. pose proof pi_bounds as PB. change (bpow radix2 2) with 4. apply Rabs_le. split; lra.
Qed.
Lemma libm_round_pow_sane : pow_sane libm_round.
Proof.
  intros x. cbn [lm_pow libm_round]. split; [apply nosign_mul|]. intros Fx H. assert (B : fbound (501 + 501) (Bmult mode_NE x x)) by (apply fb_mul; [lia|split; assumption|split; assumption]). apply B.
Qed.
Example C175_nonvacuous : trig_sane libm_round /\ pow_sane libm_round /\ angle_obj (mkAngle (F_of_Z (-30))) /\ angle_obj (mkAngle B754_nan) /\ angle_arg (AN (Fd 1 1000)) /\ angle_arg_calm (AN (F_of_Z 90)) /\
  ray_obj (mkRay (fv 3 4) (mkAngle (F_of_Z 45))) /\ vtame 500 (V (B754_infinity true) B754_nan) /\ vbound 100 (fv 3 4) /\ circle_bound 100 (mkCircle (fv 3 4) (F_of_Z 2)) /\ line_bound (mkLine (F_of_Z 3) (F_of_Z 4) (F_of_Z 5)) /\
  Forall (vbound 500) [fv 0 0; fv 0 0; fv 1 1; fv 2 2] /\ lm_pow libm_round (Fd 1 600) (F_of_Z 2) = B754_infinity false /\ bpow radix2 (-500) <= Rabs (B2R (F_of_Z 3)).
Proof.
  assert (FB : forall k n, (3 <= k)%Z -> (Z.abs n <= 2 ^ 3)%Z -> fbound k (F_of_Z n)) by (intros k n K N; apply (fb_up 3); [lia|]; apply fbound_Z; lia).
  assert (VB : forall k a b, (3 <= k)%Z -> (Z.abs a <= 2 ^ 3)%Z -> (Z.abs b <= 2 ^ 3)%Z -> vbound k (fv a b)) by (intros k a b K A B; split; apply FB; assumption).
  split; [exact libm_round_trig_sane|]. split; [exact libm_round_pow_sane|].
  assert (AO : forall n, (-180 <= n <= 180)%Z -> is_finite (F_of_Z n) = true -> B2R (F_of_Z n) = IZR n -> angle_obj (mkAngle (F_of_Z n))).
  { intros n N E2 E1. right. split; [exact E2|]. cbn [a_degree]. rewrite E1. split; apply IZR_le; lia. }
  split; [apply AO; [lia|apply (F_of_Z_exact (-30) eq_refl)|apply (F_of_Z_exact (-30) eq_refl)]|]. split; [now left|]. split; [reflexivity|].
  split; [cbn [angle_arg_calm]; apply bound_calm, (fb_up 7); [lia|apply fbound_Z; lia]|].
  split; [apply AO; [lia|apply (F_of_Z_exact 45 eq_refl)|apply (F_of_Z_exact 45 eq_refl)]|]. split; [split; intros H; discriminate|]. split; [apply VB; cbn; lia|].
  split; [split; [apply VB; cbn; lia|apply FB; cbn; lia]|]. split; [split; [apply FB; cbn; lia|split; apply FB; cbn; lia]|].
  split; [constructor; [apply VB; cbn; lia|constructor; [apply VB; cbn; lia|constructor; [apply VB; cbn; lia|constructor; [apply VB; cbn; lia|constructor]]]]|]. split; [vm_compute; reflexivity|].
  destruct (F_of_Z_exact 3 eq_refl) as [E1 E2]. rewrite E1, Rabs_pos_eq by lra. apply Rle_trans with (bpow radix2 0); [apply bpow_le; lia|change (bpow radix2 0) with 1; lra].
Qed.
