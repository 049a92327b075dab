(** * P_Matrix: properties C79-C84 *)
From Coq Require Import ZArith List Bool String Reals Lra Lia Psatz.
From Flocq Require Import Core BinarySingleNaN.
From Verif Require Import Base Types NumR NumF R_Tac Spec Abs M_Angle M_Vector M_Matrix M_Heap L_Angle L_Trig P_Angle P_Vector.
Import ListNotations.
Local Open Scope R_scope.

(** The affine map of the plane a matrix stands for. *)
Definition affine (m : matrix R) (p : point) : point :=
  (m11 m * px p + m12 m * py p + mdx m, m21 m * px p + m22 m * py p + mdy m).
Definition linear_part (m : matrix R) : point * point := ((m11 m, m21 m), (m12 m, m22 m)).

Lemma mat_ext (m o : matrix R) : m11 m = m11 o -> m12 m = m12 o -> m21 m = m21 o -> m22 m = m22 o -> mdx m = mdx o -> mdy m = mdy o -> m = o.
Proof. destruct m, o; cbn. intros -> -> -> -> -> ->. reflexivity. Qed.
Lemma transform_R m v : Matrix2D_transform m v = V (px (affine m (pt v))) (py (affine m (pt v))).
Proof. unfold Matrix2D_transform, Matrix2D_transform_xy, affine, pt, px, py. rnum. reflexivity. Qed.

(** ** C79 *)
Theorem C79_composition_R : forall (a b c : matrix R) (v : vec R),
  (* transform is the affine map *)
  pt (Matrix2D_transform a v) = affine a (pt v) /\
  (* the product transforms as one map after the other *)
  Matrix2D_transform (Matrix2D_imul a b) v = Matrix2D_transform a (Matrix2D_transform b v) /\
  Matrix2D_imul (Matrix2D_imul a b) c = Matrix2D_imul a (Matrix2D_imul b c) /\
  Matrix2D_imul a Matrix2D_identity = a /\ Matrix2D_imul Matrix2D_identity a = a /\
  pt (Matrix2D_transform Matrix2D_identity v) = pt v /\
  (* the two other spellings of transform *)
  Matrix2D_transform_xy a (vx v) (vy v) = Matrix2D_transform a v /\
  pt (Matrix2D_transform_vec a v) = pt (Matrix2D_transform a v).
Proof.
  intros a b c v. repeat split.
  - unfold Matrix2D_transform, Matrix2D_transform_xy, Matrix2D_imul, V. rnum. cbn [vx vy m11 m12 m21 m22 mdx mdy]. f_equal; ring.
  - apply mat_ext; unfold Matrix2D_imul; rnum; cbn [m11 m12 m21 m22 mdx mdy]; ring.
  - apply mat_ext; unfold Matrix2D_imul, Matrix2D_identity; rnum; cbn [m11 m12 m21 m22 mdx mdy]; ring.
  - apply mat_ext; unfold Matrix2D_imul, Matrix2D_identity; rnum; cbn [m11 m12 m21 m22 mdx mdy]; ring.
  - unfold Matrix2D_transform, Matrix2D_transform_xy, Matrix2D_identity, V, pt. rnum. cbn [vx vy m11 m12 m21 m22 mdx mdy]. f_equal; ring.
Qed.
(** the hypotheses-free statement is not about one map only *)
Example C79_nonvacuous : exists a b : matrix R, Matrix2D_imul a b <> Matrix2D_imul b a.
Proof.
  exists (mkMat 1 1 0 1 0 0), (mkMat 1 0 0 1 0 1). intros E. apply (f_equal (@mdx R)) in E. unfold Matrix2D_imul in E. cbn [m11 m12 m21 m22 mdx mdy] in E. rnum_in E. lra.
Qed.

(** ** C82 *)
Definition det2 (m : matrix R) : R := cross (fst (linear_part m)) (snd (linear_part m)).
Lemma det_R m : Matrix2D_det m = det2 m.
Proof. unfold Matrix2D_det, det2, linear_part, cross, px, py. rnum. cbn [fst snd]. ring. Qed.
Theorem C82_det_R : forall a b : matrix R,
  Matrix2D_det (Matrix2D_imul a b) = Matrix2D_det a * Matrix2D_det b /\ Matrix2D_det Matrix2D_identity = 1 /\
  (* the factor by which the map scales signed areas *)
  forall p q r, cross (psub (affine a q) (affine a p)) (psub (affine a r) (affine a p)) = Matrix2D_det a * cross (psub q p) (psub r p).
Proof.
  intros a b. rewrite !det_R. unfold det2, linear_part, cross, affine, psub, px, py, Matrix2D_imul, Matrix2D_identity. rnum. cbn [fst snd m11 m12 m21 m22 mdx mdy].
  repeat split; intros; ring.
Qed.
Example C82_nonvacuous : Matrix2D_det (mkMat 2 1 1 3 0 0) = 5.
Proof. rewrite det_R. unfold det2, linear_part, cross, px, py. cbn. lra. Qed.

(** ** C80 *)
Theorem C80_inverted_R : forall a : matrix R,
  (Matrix2D_det a <> 0 -> exists b, Matrix2D_inverted a = Ok b /\
     (forall v, pt (Matrix2D_transform b (Matrix2D_transform a v)) = pt v /\ pt (Matrix2D_transform a (Matrix2D_transform b v)) = pt v) /\
     Matrix2D_imul a b = Matrix2D_identity /\ Matrix2D_imul b a = Matrix2D_identity /\
     Matrix2D_det b = / Matrix2D_det a) /\
  (Matrix2D_det a = 0 -> Matrix2D_inverted a = Ok Matrix2D_identity) /\
  (Matrix2D_invertible a = true <-> Rabs (Matrix2D_det a) > 1/1000000).
Proof.
  intros a. repeat split.
  - intros H. unfold Matrix2D_inverted. replace (neqb (Matrix2D_det a) (num 0)) with false by (symmetry; rnum; now apply Req_bool_false).
    rnum. rewrite Rdiv_py_ok by easy. cbn [bind]. eexists. split; [reflexivity|].
    assert (HD : m11 a * m22 a - m12 a * m21 a <> 0) by (revert H; unfold Matrix2D_det; rnum; easy).
    split; [intros v; split|split; [|split]].
    + rewrite !transform_R. unfold pt, V, affine, px, py. cbn [vx vy fst snd m11 m12 m21 m22 mdx mdy]. unfold Matrix2D_det; rnum. f_equal; field; exact HD.
    + rewrite !transform_R. unfold pt, V, affine, px, py. cbn [vx vy fst snd m11 m12 m21 m22 mdx mdy]. unfold Matrix2D_det; rnum. f_equal; field; exact HD.
    + apply mat_ext; unfold Matrix2D_imul, Matrix2D_identity, Matrix2D_det; rnum; cbn [m11 m12 m21 m22 mdx mdy]; field; exact HD.
    + apply mat_ext; unfold Matrix2D_imul, Matrix2D_identity, Matrix2D_det; rnum; cbn [m11 m12 m21 m22 mdx mdy]; field; exact HD.
    + unfold Matrix2D_det; rnum; cbn [m11 m12 m21 m22 mdx mdy]; field; exact HD.
  - intros H. unfold Matrix2D_inverted. replace (neqb (Matrix2D_det a) (num 0)) with true by (symmetry; rnum; now apply Req_bool_true). reflexivity.
  - unfold Matrix2D_invertible, EPSILON. rnum. rewrite Rlt_bool_iff. lra.
  - unfold Matrix2D_invertible, EPSILON. rnum. rewrite Rlt_bool_iff. lra.
Qed.
(** a matrix with a usable inverse that invertible() rejects *)
Example C80_nonvacuous : Matrix2D_det (mkMat (1/1000) 0 0 (1/10000) 5 7) <> 0 /\ Matrix2D_invertible (mkMat (1/1000) 0 0 (1/10000) 5 7) = false.
Proof.
  split; [rewrite det_R; unfold det2, linear_part, cross, px, py; cbn; lra|].
  apply not_true_iff_false. rewrite (proj2 (proj2 (C80_inverted_R _))). rewrite det_R. unfold det2, linear_part, cross, px, py. cbn. rewrite Rabs_pos_eq; lra.
Qed.

(** ** C81 *)
Lemma cosA (a : angle R) : AngleDeg_cos a = Ok (cos (rad (a_degree a))).
Proof. unfold AngleDeg_cos. rewrite DEG2RAD_R. rnum. reflexivity. Qed.
Lemma sinA (a : angle R) : AngleDeg_sin a = Ok (sin (rad (a_degree a))).
Proof. unfold AngleDeg_sin. rewrite DEG2RAD_R. rnum. reflexivity. Qed.
Theorem C81_premultiply_R : forall (m : matrix R) (x y : R) (a : angle R),
  Matrix2D_translate m x y = Matrix2D_imul (make_translation x y) m /\
  Matrix2D_scale m x y = Matrix2D_imul (make_scaling x y) m /\
  (exists r, make_rotation a = Ok r /\ Matrix2D_rotate m a = Ok (Matrix2D_imul r m) /\ Matrix2D_det r = 1 /\
     forall v, exists w, Vector2D_rotate v (AA a) = Ok w /\ pt (Matrix2D_transform r v) = pt w) /\
  (forall p, affine (make_translation x y) p = (px p + x, py p + y)) /\
  (forall p, affine (make_scaling x y) p = (x * px p, y * py p)) /\
  Matrix2D_det (make_translation x y) = 1 /\ Matrix2D_det (make_scaling x y) = x * y.
Proof.
  intros m x y a. repeat split.
  - apply mat_ext; unfold Matrix2D_imul, Matrix2D_translate, make_translation; rnum; cbn [m11 m12 m21 m22 mdx mdy]; ring.
  - apply mat_ext; unfold Matrix2D_imul, Matrix2D_scale, make_scaling; rnum; cbn [m11 m12 m21 m22 mdx mdy]; ring.
  - unfold make_rotation, Matrix2D_rotate. rewrite cosA, sinA. cbn [bind]. eexists. split; [reflexivity|]. split; [|split].
    + f_equal. apply mat_ext; unfold Matrix2D_imul; rnum; cbn [m11 m12 m21 m22 mdx mdy]; ring.
    + rewrite det_R. unfold det2, linear_part, cross, px, py. rnum. cbn [fst snd m11 m12 m21 m22]. pose proof (sin2_cos2 (rad (a_degree a))) as S. unfold Rsqr in S. lra.
    + intros v. rewrite rotate_R. eexists. split; [reflexivity|]. rewrite transform_R. unfold pt, V, affine, px, py. rnum. cbn. f_equal; ring.
  - intros p. unfold affine, make_translation. rnum. cbn. f_equal; ring.
  - intros p. unfold affine, make_scaling. rnum. cbn. f_equal; ring.
  - rewrite det_R. unfold det2, linear_part, cross, make_translation, px, py. rnum. cbn. ring.
  - rewrite det_R. unfold det2, linear_part, cross, make_scaling, px, py. rnum. cbn. ring.
Qed.
Example C81_nonvacuous : affine (Matrix2D_translate (mkMat 2 0 0 2 0 0) 1 0) (1, 1) = (3, 2).
Proof. unfold affine, Matrix2D_translate, px, py. rnum. cbn. f_equal; lra. Qed.

(** ** C84 *)
Theorem C84_eq_R : forall a b : matrix R,
  (Matrix2D_eq a a = true <-> mdx a = mdy a) /\
  (Matrix2D_eq a b = true <-> m11 a = m11 b /\ m12 a = m12 b /\ m21 a = m21 b /\ m22 a = m22 b /\ mdx a = mdy b /\ mdy a = mdy b).
Proof.
  assert (G : forall a b, Matrix2D_eq a b = true <-> m11 a = m11 b /\ m12 a = m12 b /\ m21 a = m21 b /\ m22 a = m22 b /\ mdx a = mdy b /\ mdy a = mdy b).
  { intros a b. unfold Matrix2D_eq. rnum. rewrite !andb_true_iff, !Req_bool_iff. tauto. }
  intros a b. split; [|apply G]. rewrite G. tauto.
Qed.
(** The same in double arithmetic: an untransformed copy compares unequal. *)
Theorem C84_refuted_F : forall L, exists a : matrix F, @Matrix2D_eq F (NumF L) a a = false /\ a = @make_translation F (NumF L) (F_of_Z 1) (F_of_Z 2).
Proof. intros L. exists (@make_translation F (NumF L) (F_of_Z 1) (F_of_Z 2)). split; [vm_compute; reflexivity|reflexivity]. Qed.
(** different maps that compare equal *)
Theorem C84_false_equal_R : exists a b : matrix R, Matrix2D_eq a b = true /\ affine a (0, 0) <> affine b (0, 0).
Proof.
  exists (mkMat 1 0 0 1 1 1), (mkMat 1 0 0 1 2 1). split; [apply C84_eq_R; cbn; easy|]. unfold affine; cbn. intros E. injection E. lra.
Qed.
Example C84_nonvacuous : mdx (mkMat 1 0 0 1 3 3) = mdy (mkMat 1 0 0 1 3 3). Proof. reflexivity. Qed.

(** ** C83 *)
Lemma put_same {A} (h : store A) r a : put h r a r = a.
Proof. unfold put. now rewrite Nat.eqb_refl. Qed.
Lemma put_other {A} (h : store A) r a r' : r' <> r -> put h r a r' = h r'.
Proof. intros N. unfold put. apply Nat.eqb_neq in N. now rewrite N. Qed.
(** the variables of an expression, left to right *)
Fixpoint mvars (e : mexpr) : list ref :=
  match e with MVar r => [r] | MMul a b => mvars a ++ mvars b end.
(** the product of matrices, as maps *)
Definition mprod {T} `{Num T} (l : list (matrix T)) : matrix T := fold_left Matrix2D_imul l Matrix2D_identity.
Theorem C83_overwrites : forall T (N : Num T) (h : mheap) (a b : ref),
  let '(h', r) := mul_obj h a b in
  r = a /\ h' a = Matrix2D_imul (h a) (h b) /\ forall c, c <> a -> h' c = h c.
Proof. intros T N h a b. cbn. split; [easy|]. split; [apply put_same|]. intros c Hc. now apply put_other. Qed.
Lemma mprod_R (x : matrix R) l : fold_left Matrix2D_imul l x = Matrix2D_imul x (mprod l).
Proof.
  unfold mprod. revert x. induction l as [|y l IH]; intros x; cbn [fold_left]; [symmetry; apply (C79_composition_R x x x (mkVec 0 0 true))|].
  rewrite IH. rewrite (IH (Matrix2D_imul Matrix2D_identity y)).
  destruct (C79_composition_R x y (fold_left Matrix2D_imul l Matrix2D_identity) (mkVec 0 0 true)) as (_ & _ & A & _).
  destruct (C79_composition_R y y y (mkVec 0 0 true)) as (_ & _ & _ & _ & B & _). now rewrite A, B.
Qed.
Lemma mprod_app (l l' : list (matrix R)) : mprod (l ++ l') = Matrix2D_imul (mprod l) (mprod l').
Proof. unfold mprod at 1. rewrite fold_left_app. apply mprod_R. Qed.
(** If no variable occurs twice, the value of a product expression is the
    product of the values; the variables that were left operands are
    overwritten. *)
Lemma meval_distinct (e : mexpr) : forall (h h' : mheap (T := R)) r, NoDup (mvars e) -> meval h e = (h', r) ->
  hd_error (mvars e) = Some r /\ h' r = mprod (map h (mvars e)) /\ forall c, ~ In c (mvars e) -> h' c = h c.
Proof.
  induction e as [x|a IHa b IHb]; intros h h' r ND; cbn [meval mvars].
  - intros [= <- <-]. split; [easy|]. split; [|easy]. unfold mprod; cbn. symmetry. apply (C79_composition_R (h x) (h x) (h x) (mkVec 0 0 true)).
  - destruct (meval h a) as [h1 ra] eqn:Ea. destruct (meval h1 b) as [h2 rb] eqn:Eb. intros [= <- <-].
    cbn [mvars] in ND. assert (NDa : NoDup (mvars a)) by (revert ND; clear; induction (mvars a); cbn; [constructor|intros ND; inversion ND as [|x y N1 N2]; subst; constructor; [intros K; apply N1, in_or_app; auto|auto]]).
    assert (NDb : NoDup (mvars b)) by (revert ND; clear; induction (mvars a); cbn; [easy|intros ND; inversion ND; auto]).
    assert (DJ : forall x, In x (mvars a) -> ~ In x (mvars b)).
    { revert ND. clear. induction (mvars a) as [|y l IH]; cbn; [easy|]. intros ND x [<-|Hx]; inversion ND as [|u v N1 N2]; subst; [intros K; apply N1, in_or_app; auto|now apply IH]. }
    destruct (IHa h h1 ra NDa Ea) as (A1 & A2 & A3). destruct (IHb h1 h2 rb NDb Eb) as (B1 & B2 & B3).
    assert (Ra : In ra (mvars a)) by (destruct (mvars a); [discriminate|injection A1 as ->; cbn; auto]).
    split; [destruct (mvars a); [discriminate|exact A1]|]. split.
    + rewrite put_same, map_app, mprod_app. rewrite (B3 ra) by now apply DJ. rewrite A2, B2. f_equal. f_equal.
      apply map_ext_in. intros x Hx. apply A3. intros K. now apply (DJ x).
    + intros c Hc. rewrite in_app_iff in Hc. rewrite put_other by (intros ->; tauto). rewrite B3 by tauto. apply A3. tauto.
Qed.
Theorem C83_product_R : forall (e : mexpr) (h : mheap (T := R)), NoDup (mvars e) ->
  let '(h', r) := meval h e in
  h' r = mprod (map h (mvars e)) /\ hd_error (mvars e) = Some r /\ forall c, ~ In c (mvars e) -> h' c = h c.
Proof. intros e h ND. destruct (meval h e) as [h' r] eqn:E. destruct (meval_distinct e h h' r ND E) as (A & B & C). auto. Qed.
Example C83_nonvacuous : NoDup (mvars (MMul (MMul (MVar 0%nat) (MVar 1%nat)) (MMul (MVar 2%nat) (MVar 3%nat)))).
Proof. cbn. repeat constructor; cbn; intuition discriminate. Qed.
(** With a variable used twice it is not: (A * B) * A is A B A B. *)
Theorem C83_reuse_refuted : exists h : mheap (T := R),
  let '(h', r) := meval h (MMul (MMul (MVar 0%nat) (MVar 1%nat)) (MVar 0%nat)) in
  h' r <> mprod [h 0%nat; h 1%nat; h 0%nat] /\ h' r = mprod [h 0%nat; h 1%nat; h 0%nat; h 1%nat].
Proof.
  set (A := mkMat 1 0 0 1 0 0). set (B := mkMat 2 0 0 2 0 0).
  exists (fun r => if Nat.eqb r 0%nat then A else B).
  cbn [meval]. unfold mul_obj, imul_obj, put. cbn [Nat.eqb map].
  assert (P2 : forall x y : matrix R, mprod [x; y] = Matrix2D_imul x y).
  { intros x y. unfold mprod. cbn [fold_left]. f_equal. apply (C79_composition_R x x x (mkVec 0 0 true)). }
  split.
  - change [A; B; A] with ([A; B] ++ [A]). rewrite mprod_app, P2. intros E. apply (f_equal (@m11 R)) in E.
    unfold A, B, mprod, Matrix2D_imul, Matrix2D_identity in E. cbn [m11 m12 m21 m22 mdx mdy fold_left] in E. rnum_in E. lra.
  - change [A; B; A; B] with ([A; B] ++ [A; B]). now rewrite mprod_app, !P2.
Qed.
