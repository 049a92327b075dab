(** * P_Angle: properties C01-C08, C10, C11 of AngleDeg over ideal reals.
    (The binary64 versions are in P_AngleF.v.) *)
From Coq Require Import ZArith List Bool String Reals Lra Lia Psatz.
From Flocq Require Import Core.
From Verif Require Import Base Types NumR R_Tac Spec M_Angle L_Angle.
Import ListNotations.
Local Open Scope R_scope.

(** C01/C02 (reals).  AngleDeg(x) returns, its degree() returns the stored
    value, which is in [-180,180], is the direction of x, and is x itself when
    x was in range. *)
Theorem C01_C02_normalise_R : forall x : R,
  exists a, AngleDeg_init [VNum x] [] = Ok a /\
    AngleDeg_degree a = Ok (a_degree a) /\
    -180 <= a_degree a <= 180 /\
    cong360 (a_degree a) x /\
    (-180 <= x <= 180 -> a_degree a = x).
Proof.
  intros x. exists (mkAngle (nrm x)). cbn [AngleDeg_init AngleDeg_ctor_val].
  rewrite of_num_R. split; [easy|]. cbn [a_degree].
  rewrite degree_in by (apply nrm_range).
  repeat split; try apply nrm_range; auto using nrm_cong, nrm_id.
Qed.
Example C01_nonvacuous : AngleDeg_init [VNum 1000] [] = Ok (mkAngle (-80)).
Proof.
  cbn [AngleDeg_init AngleDeg_ctor_val]. rewrite of_num_R. do 2 f_equal.
  apply cong360_small.
  - eapply cong360_trans; [apply nrm_cong|]. exists 3%Z; lra.
  - pose proof (nrm_range 1000). apply Rabs_def1; lra.
Qed.

(** The same for the [af=] keyword and for copy construction; without
    arguments the angle is zero. *)
Theorem C02_ctor_forms_R : forall (x : R) (a : angle R),
  (exists z, AngleDeg_init (T := R) [] [] = Ok z /\ a_degree z = 0) /\
  AngleDeg_init [] [("af"%string, VNum x)] = AngleDeg_init [VNum x] [] /\
  (exists b, AngleDeg_init [VAng a] [] = Ok b /\ -180 <= a_degree b <= 180 /\
     cong360 (a_degree b) (a_degree a)).
Proof.
  intros x a; split.
  { exists (mkAngle (nrm 0)). cbn [AngleDeg_init]. rewrite <- of_num_R. split; [reflexivity|]. apply nrm_id. lra. }
  split; [reflexivity|]. cbn. rewrite of_angle_R.
  eexists; split; [reflexivity|]. cbn. split; [apply nrm_range|apply nrm_cong].
Qed.

(** C02: normalize_angle (the module-level helper, Python %). *)
Theorem C02_normalize_angle_R : forall x : R,
  exists d, normalize_angle x = Ok d /\ -180 <= d <= 180 /\ cong360 d x.
Proof.
  intros x. unfold normalize_angle; rnum; unfold Rmod_py.
  rewrite Req_bool_false by lra.
  set (q := Zfloor (x / 360)).
  assert (Hq : 0 <= x - 360 * IZR q < 360).
  { pose proof (Zfloor_lb (x/360)); pose proof (Zfloor_ub (x/360)). fold q in H, H0. lra. }
  assert (C0 : cong360 (x - 360 * IZR q) x).
  { exists (-q)%Z. rewrite opp_IZR. lra. }
  assert (CU : forall d, cong360 d x -> cong360 (d + 360) x).
  { intros d [k ->]; exists (k+1)%Z; rewrite plus_IZR; lra. }
  assert (CD : forall d, cong360 d x -> cong360 (d - 360) x).
  { intros d [k ->]; exists (k-1)%Z; rewrite minus_IZR; lra. }
  pose proof (cong360_refl x).
  rcases; eexists; (split; [reflexivity|]);
  (split; [try lra|auto]).
Qed.

(** ** C03: histories *)
(** The operations of the history property; in-place operators rebind the
    variable, so all of them produce the new current angle. *)
Section History.
  Context {T : Type} `{Num T}.
  Inductive angle_op :=
  | OpSetDegree (x : T) | OpSetAngle (b : angle T)
  | OpIadd (x : ang_arg T) | OpIsub (x : ang_arg T) | OpImul (x : T)
  | OpAdd (x : ang_arg T) | OpSub (x : ang_arg T) | OpMul (x : T) | OpFloordiv (x : T)
  | OpNeg | OpCopy | OpCopyCtor | OpReverse | OpReverseAngle.

  Definition angle_step (o : angle_op) (a : angle T) : res (angle T) :=
    match o with
    | OpSetDegree x => AngleDeg_set_degree a x
    | OpSetAngle b => AngleDeg_set_angle a b
    | OpIadd x => AngleDeg_iadd a x
    | OpIsub x => AngleDeg_isub a x
    | OpImul x => AngleDeg_imul a x
    | OpAdd x => AngleDeg_add a x
    | OpSub x => AngleDeg_sub a x
    | OpMul x => AngleDeg_mul a x
    | OpFloordiv x => AngleDeg_floordiv a x
    | OpNeg => AngleDeg_neg a
    | OpCopy => AngleDeg_copy a
    | OpCopyCtor => AngleDeg_of_angle a
    | OpReverse => Ok (AngleDeg_reverse a)
    | OpReverseAngle => AngleDeg_reverse_angle a
    end.

  Fixpoint angle_run (os : list angle_op) (a : angle T) : res (angle T) :=
    match os with
    | [] => Ok a
    | o :: os' => bind (angle_step o a) (angle_run os')
    end.
End History.
Arguments angle_op : clear implicits.

Lemma reverse_range a : in_range a -> in_range (AngleDeg_reverse a).
Proof.
  unfold in_range, AngleDeg_reverse; rnum. rcases; cbn; lra.
Qed.

Lemma angle_step_range (o : angle_op R) a b : in_range a -> angle_step o a = Ok b -> in_range b.
Proof.
  intros Ha. destruct o; cbn [angle_step];
  unfold AngleDeg_set_degree, AngleDeg_set_angle, AngleDeg_iadd, AngleDeg_isub, AngleDeg_imul,
    AngleDeg_add, AngleDeg_sub, AngleDeg_mul, AngleDeg_floordiv, AngleDeg_neg, AngleDeg_copy,
    AngleDeg_reverse_angle.
  all: try (destruct x as [c|y]); unfold ang_num;
    rewrite ?of_angle_R, ?degree_R, ?normal_nrm; cbn [bind]; rewrite ?of_num_R, ?degree_R; cbn [bind];
    try (intros [= <-]; apply nrm_range).
  - (* floordiv *) cbn; unfold Rdiv_py; case Req_bool; cbn; [discriminate|].
    rewrite of_num_R. intros [= <-]; apply nrm_range.
  - intros [= <-]; now apply reverse_range.
  - intros [= <-]; apply reverse_range, nrm_range.
Qed.

(** Whatever the history, the current angle is in range; and only [//] by
    zero can make a history raise. *)
Theorem C03_history_R : forall (os : list (angle_op R)) (x : R) a,
  AngleDeg_init [VNum x] [] = Ok a ->
  (forall b, angle_run os a = Ok b -> -180 <= a_degree b <= 180) /\
  ((forall y, In (OpFloordiv y) os -> y <> 0) -> exists b, angle_run os a = Ok b).
Proof.
  intros os x a H. cbn [AngleDeg_init AngleDeg_ctor_val] in H. rewrite of_num_R in H. injection H as <-.
  assert (Ha : in_range (mkAngle (nrm x))) by apply nrm_range.
  revert Ha. generalize (mkAngle (nrm x)). clear x.
  induction os as [|o os IH]; intros a Ha; cbn [angle_run]; split.
  - intros b [= <-]; exact Ha.
  - intros _; now exists a.
  - intros b. destruct (angle_step o a) eqn:E; cbn [bind]; [|discriminate].
    apply IH. eapply angle_step_range; eauto.
  - intros Hz. assert (exists c, angle_step o a = Ok c) as [c Hc].
    { clear -Hz. destruct o; cbn [angle_step];
      unfold AngleDeg_set_degree, AngleDeg_set_angle, AngleDeg_iadd, AngleDeg_isub, AngleDeg_imul,
        AngleDeg_add, AngleDeg_sub, AngleDeg_mul, AngleDeg_floordiv, AngleDeg_neg, AngleDeg_copy,
        AngleDeg_reverse_angle.
      all: try (destruct x as [c|y]); unfold ang_num;
        rewrite ?of_angle_R, ?degree_R, ?normal_nrm; cbn [bind]; rewrite ?of_num_R, ?degree_R; cbn [bind]; eauto.
      cbn; rewrite Rdiv_py_ok by (apply Hz; now left). cbn; rewrite of_num_R; eauto. }
    rewrite Hc; cbn [bind]. apply IH; [eapply angle_step_range; eauto|].
    intros y Hy; apply Hz; now right.
Qed.
Example C03_nonvacuous :
  exists a b, AngleDeg_init [VNum 100] [] = Ok a /\
    angle_run [OpIadd (AN 100); OpReverse; OpImul (-2)] a = Ok b /\ a_degree b = -40.
Proof.
  exists (mkAngle 100), (mkAngle (-40)). split; [|split; [|easy]].
  - cbn [AngleDeg_init AngleDeg_ctor_val]. rewrite of_num_R, nrm_id by lra. easy.
  - cbn [angle_run angle_step]. unfold AngleDeg_iadd, AngleDeg_imul, ang_num. cbn [bind].
    rewrite of_num_R. cbn [bind a_degree].
    replace (nrm (nadd 100 100)) with (-160).
    2:{ symmetry; cbn; apply cong360_small.
        eapply cong360_trans; [apply nrm_cong|]. exists 1%Z; lra.
        pose proof (nrm_range (100+100)); apply Rabs_def1; lra. }
    unfold AngleDeg_reverse; cbn [a_degree].
    rnum. rcases; try lra. cbn [a_degree]. rewrite of_num_R.
    cbn [bind]. do 2 f_equal.
    replace ((180 + -160) * -2) with (-40) by lra. apply nrm_id; lra.
Qed.

(** ** C04: arithmetic modulo 360 *)
Theorem C04_arith_R : forall (a : angle R) (x : ang_arg R),
  (exists b, AngleDeg_add a x = Ok b /\ -180 <= a_degree b <= 180 /\
     cong360 (a_degree b) (a_degree a + arg_deg x)) /\
  (exists b, AngleDeg_sub a x = Ok b /\ -180 <= a_degree b <= 180 /\
     cong360 (a_degree b) (a_degree a - arg_deg x)) /\
  (exists b, AngleDeg_iadd a x = Ok b /\ -180 <= a_degree b <= 180 /\
     cong360 (a_degree b) (a_degree a + arg_deg x)) /\
  (exists b, AngleDeg_isub a x = Ok b /\ -180 <= a_degree b <= 180 /\
     cong360 (a_degree b) (a_degree a - arg_deg x)) /\
  (exists b, AngleDeg_neg a = Ok b /\ -180 <= a_degree b <= 180 /\
     cong360 (a_degree b) (- a_degree a)).
Proof.
  intros a x.
  destruct (ang_num_R x) as [d [Hd Hc]].
  assert (HA : exists b, AngleDeg_of_num (a_degree a + d) = Ok b /\ -180 <= a_degree b <= 180 /\
     cong360 (a_degree b) (a_degree a + arg_deg x)).
  { rewrite of_num_R; eexists; split; [reflexivity|]; cbn; split; [apply nrm_range|].
    eapply cong360_trans; [apply nrm_cong|]. apply cong360_add; auto using cong360_refl. }
  assert (HS : exists b, AngleDeg_of_num (a_degree a - d) = Ok b /\ -180 <= a_degree b <= 180 /\
     cong360 (a_degree b) (a_degree a - arg_deg x)).
  { rewrite of_num_R; eexists; split; [reflexivity|]; cbn; split; [apply nrm_range|].
    eapply cong360_trans; [apply nrm_cong|]. apply cong360_sub; auto using cong360_refl. }
  unfold AngleDeg_add, AngleDeg_iadd, AngleDeg_isub, AngleDeg_neg.
  rewrite Hd; cbn [bind]. repeat split; auto.
  - destruct x as [b|y]; cbn [AngleDeg_sub]; rewrite of_num_R; eexists; (split; [reflexivity|]);
    cbn; (split; [apply nrm_range|apply nrm_cong]).
  - rewrite of_num_R; eexists; split; [reflexivity|]; cbn; split; [apply nrm_range|apply nrm_cong].
Qed.
Example C04_nonvacuous : AngleDeg_add (mkAngle 170) (AA (mkAngle 20)) = Ok (mkAngle (-170)).
Proof.
  unfold AngleDeg_add, ang_num. rewrite degree_in by (unfold in_range; cbn; lra). cbn [bind a_degree].
  rewrite of_num_R. do 2 f_equal. cbn. apply cong360_small.
  eapply cong360_trans; [apply nrm_cong|]. exists 1%Z; lra.
  pose proof (nrm_range (170+20)); apply Rabs_def1; lra.
Qed.

(** C04: scaling multiplies the stored degree and normalises; [//] divides
    (true division, not floor) and raises exactly for a zero divisor. *)
Theorem C04_scale_R : forall (a : angle R) (k : R),
  (exists b, AngleDeg_mul a k = Ok b /\ -180 <= a_degree b <= 180 /\
     cong360 (a_degree b) (a_degree a * k)) /\
  (exists b, AngleDeg_imul a k = Ok b /\ -180 <= a_degree b <= 180 /\
     cong360 (a_degree b) (a_degree a * k)) /\
  (k <> 0 -> exists b, AngleDeg_floordiv a k = Ok b /\ -180 <= a_degree b <= 180 /\
     cong360 (a_degree b) (a_degree a / k)) /\
  AngleDeg_floordiv a 0 = Raise ZeroDivisionError /\
  AngleDeg_idiv a k = AngleDeg_floordiv a k.
Proof.
  intros a k. unfold AngleDeg_mul, AngleDeg_imul, AngleDeg_floordiv.
  rewrite of_num_R. repeat split.
  1,2: eexists; split; [reflexivity|]; cbn; split; [apply nrm_range|apply nrm_cong].
  - intros Hk. cbn. rewrite Rdiv_py_ok by easy. cbn. rewrite of_num_R.
    eexists; split; [reflexivity|]; cbn; split; [apply nrm_range|apply nrm_cong].
  - cbn; unfold Rdiv_py; rewrite Req_bool_true by easy; easy.
Qed.

(** C01: the readings derived from the degree. *)
Theorem C01_readings_R : forall x : R, exists a m u,
  AngleDeg_init [VNum x] [] = Ok a /\
  AngleDeg_abs a = Ok m /\ 0 <= m <= 180 /\ (m = a_degree a \/ m = - a_degree a) /\
  AngleDeg_get_normalized a = Ok u /\ 0 <= u <= 1 /\ a_degree a = 360 * u - 180.
Proof.
  intros x. pose proof (nrm_range x) as Hr. exists (mkAngle (nrm x)), (Rabs (nrm x)), ((nrm x + 180) / 360).
  cbn [AngleDeg_init AngleDeg_ctor_val]. rewrite of_num_R. split; [easy|].
  unfold AngleDeg_abs, AngleDeg_get_normalized. rewrite degree_in by exact Hr. cbn [bind a_degree]. rnum.
  split; [easy|]. split; [split; [apply Rabs_pos|apply Rabs_le; lra]|].
  split; [destruct (Rle_dec 0 (nrm x)); [left; apply Rabs_pos_eq; lra|right; apply Rabs_left; lra]|].
  rewrite Rdiv_py_ok by lra. split; [easy|]. lra.
Qed.
Example C01_readings_nonvacuous : AngleDeg_init [VNum 1000] [] = Ok (mkAngle (-80)) /\ AngleDeg_abs (mkAngle (-80)) = Ok 80.
Proof.
  split; [exact C01_nonvacuous|]. unfold AngleDeg_abs. rewrite degree_in by (unfold in_range; cbn; lra). cbn [bind a_degree]. rnum.
  f_equal. rewrite Rabs_left; lra.
Qed.

(** ** C05: reverse *)
Theorem C05_reverse_R : forall a : angle R, -180 <= a_degree a <= 180 ->
  let b := AngleDeg_reverse a in
  -180 <= a_degree b <= 180 /\
  cong360 (a_degree b) (a_degree a + 180) /\
  AngleDeg_reverse_angle a = Ok b /\
  (a_degree a <> 180 -> AngleDeg_reverse b = a) /\
  (a_degree a = 180 -> AngleDeg_reverse b = mkAngle (-180)).
Proof.
  intros [d] Hd b; cbn [a_degree] in Hd.
  assert (Hb : in_range b) by (apply reverse_range; exact Hd).
  split; [exact Hb|]. split; [|split; [|split]].
  - unfold b, AngleDeg_reverse; cbn [a_degree]; rnum. rcases; cbn.
    exists (-1)%Z; lra. exists 0%Z; lra.
  - unfold AngleDeg_reverse_angle. rewrite degree_in by easy. cbn [bind].
    rewrite of_num_R; cbn. now rewrite nrm_id.
  - intros Hn. unfold b, AngleDeg_reverse; cbn [a_degree]; rnum. rcases; cbn [a_degree] in *; f_equal; lra.
  - cbn [a_degree]. intros E; subst d. unfold b, AngleDeg_reverse; cbn [a_degree]; rnum. rcases; cbn [a_degree] in *; f_equal; lra.
Qed.

(** ** C06: left/right *)
Lemma turn_fun d1 d2 : -180 <= d1 <= 180 -> -180 <= d2 <= 180 ->
  turn d1 d2 (if Rle_bool d1 d2 then if Rlt_bool (d2 - d1) 360 then d2 - d1 else 0
              else d2 - d1 + 360).
Proof.
  intros. unfold turn. rcases; (split; [lra|]);
  first [exists 0%Z; lra | exists (-1)%Z; lra | exists 1%Z; lra].
Qed.
Lemma turn_unique a b t u : turn a b t -> turn a b u -> t = u.
Proof.
  intros [Ht Ct] [Hu Cu]. apply cong360_small; [|apply Rabs_def1; lra].
  assert (cong360 (a + t) (a + u)) as [k Hk] by eauto using cong360_trans, cong360_sym.
  exists k; lra.
Qed.
Lemma turn_cases d1 d2 t : -180 <= d1 <= 180 -> -180 <= d2 <= 180 -> turn d1 d2 t ->
  (d1 <= d2 /\ d2 - d1 < 360 /\ t = d2 - d1) \/ (d1 = -180 /\ d2 = 180 /\ t = 0)
  \/ (d2 < d1 /\ t = d2 - d1 + 360).
Proof.
  intros H1 H2 Ht. pose proof (turn_unique _ _ _ _ Ht (turn_fun _ _ H1 H2)) as ->.
  rcases; lra.
Qed.
Lemma turn_exists d1 d2 : -180 <= d1 <= 180 -> -180 <= d2 <= 180 -> exists t, turn d1 d2 t.
Proof. intros; eexists; now apply turn_fun. Qed.

Lemma left_of_R a b : in_range a -> in_range b ->
  AngleDeg_is_left_of a (AA b) = Ok
    ((Rlt_bool 0 (a_degree b - a_degree a) && Rlt_bool (a_degree b - a_degree a) 180)
     || Rlt_bool (a_degree b - a_degree a) (-180)).
Proof.
  intros Ha Hb. unfold AngleDeg_is_left_of, to_angle. cbn [bind].
  rewrite !degree_in by easy. reflexivity.
Qed.
Lemma left_equal_of_R a b : in_range a -> in_range b ->
  AngleDeg_is_left_equal_of a (AA b) = Ok
    ((Rle_bool 0 (a_degree b - a_degree a) && Rlt_bool (a_degree b - a_degree a) 180)
     || Rlt_bool (a_degree b - a_degree a) (-180)).
Proof.
  intros Ha Hb. unfold AngleDeg_is_left_equal_of, to_angle. cbn [bind].
  rewrite !degree_in by easy. reflexivity.
Qed.

(** a.is_left_of(b) is exactly "b is reached from a by a clockwise turn
    strictly between 0 and 180", except that +180 counts as left of -180. *)
Theorem C06_left_of_R : forall a b, in_range a -> in_range b ->
  exists l, AngleDeg_is_left_of a (AA b) = Ok l /\
    (~ (a_degree a = 180 /\ a_degree b = -180) ->
       (l = true <-> exists t, turn (a_degree a) (a_degree b) t /\ 0 < t < 180)) /\
    (a_degree a = 180 -> a_degree b = -180 -> l = true).
Proof.
  intros a b Ha Hb. rewrite left_of_R by easy. eexists; split; [reflexivity|].
  unfold in_range in *.
  destruct (turn_exists _ _ Ha Hb) as [t Ht].
  pose proof (turn_cases _ _ _ Ha Hb Ht) as Hc. split.
  - intros Hne.
    assert ((exists t, turn (a_degree a) (a_degree b) t /\ 0 < t < 180) <-> 0 < t < 180) as ->.
    { split; [intros [u [Hu Hr]]; rewrite (turn_unique _ _ _ _ Ht Hu); easy|eauto]. }
    rewrite orb_true_iff, andb_true_iff, !Rlt_bool_iff. split; [|lra].
    intros; destruct Hc as [Hc|[Hc|Hc]]; try lra.
  - intros -> ->. rewrite orb_true_iff, !Rlt_bool_iff. lra.
Qed.

Theorem C06_left_equal_of_R : forall a b, in_range a -> in_range b ->
  exists l, AngleDeg_is_left_equal_of a (AA b) = Ok l /\
    (~ (a_degree a = -180 /\ a_degree b = 180) ->
       (l = true <-> exists t, turn (a_degree a) (a_degree b) t /\ 0 <= t < 180)) /\
    (a_degree a = -180 -> a_degree b = 180 -> l = false).
Proof.
  intros a b Ha Hb. rewrite left_equal_of_R by easy. eexists; split; [reflexivity|].
  unfold in_range in *.
  destruct (turn_exists _ _ Ha Hb) as [t Ht].
  pose proof (turn_cases _ _ _ Ha Hb Ht) as Hc. split.
  - intros Hne.
    assert ((exists t, turn (a_degree a) (a_degree b) t /\ 0 <= t < 180) <-> 0 <= t < 180) as ->.
    { split; [intros [u [Hu Hr]]; rewrite (turn_unique _ _ _ _ Ht Hu); easy|eauto]. }
    rewrite orb_true_iff, andb_true_iff, !Rlt_bool_iff, Rle_bool_iff. split; [|lra].
    intros; destruct Hc as [Hc|[Hc|Hc]]; try lra.
  - intros -> ->. rcases; try lra; easy.
Qed.

(** The right tests are the left tests with the operands exchanged, and
    exactly one of left, right, collinear (same or opposite) holds. *)
Theorem C06_right_and_trichotomy_R : forall a b, in_range a -> in_range b ->
  AngleDeg_is_right_of a (AA b) = AngleDeg_is_left_of b (AA a) /\
  AngleDeg_is_right_equal_of a (AA b) = AngleDeg_is_left_equal_of b (AA a) /\
  (~ (a_degree a = 180 /\ a_degree b = -180) -> ~ (a_degree a = -180 /\ a_degree b = 180) ->
   (AngleDeg_is_left_of a (AA b) = Ok true /\ AngleDeg_is_right_of a (AA b) = Ok false /\
      ~ cong360 (2 * a_degree a) (2 * a_degree b)) \/
   (AngleDeg_is_left_of a (AA b) = Ok false /\ AngleDeg_is_right_of a (AA b) = Ok true /\
      ~ cong360 (2 * a_degree a) (2 * a_degree b)) \/
   (AngleDeg_is_left_of a (AA b) = Ok false /\ AngleDeg_is_right_of a (AA b) = Ok false /\
      cong360 (2 * a_degree a) (2 * a_degree b))).
Proof.
  intros a b Ha Hb.
  assert (HR : AngleDeg_is_right_of a (AA b) = AngleDeg_is_left_of b (AA a)).
  { unfold AngleDeg_is_right_of, AngleDeg_is_left_of, to_angle; cbn [bind].
    rewrite !degree_in by easy. reflexivity. }
  split; [exact HR|]. split.
  { unfold AngleDeg_is_right_equal_of, AngleDeg_is_left_equal_of, to_angle; cbn [bind].
    rewrite !degree_in by easy. reflexivity. }
  intros N1 N2. rewrite HR, !left_of_R by easy.
  unfold in_range in *. destruct a as [da], b as [db]; cbn [a_degree] in *.
  assert (Hint : forall k : Z, 2 * da = 2 * db + 360 * IZR k -> da <> db ->
     da - db = 180 \/ da - db = -180 \/ da - db = 360 \/ da - db = -360).
  { intros k Hk Hne.
    assert (-2 <= IZR k <= 2) as [K1 K2] by lra.
    apply le_IZR in K1; apply le_IZR in K2.
    assert (k = -2 \/ k = -1 \/ k = 0 \/ k = 1 \/ k = 2)%Z as Hcs by lia.
    destruct Hcs as [->|[->|[->|[->| ->]]]]; lra. }
  rcases;
  solve [ left; repeat split; intros [k Hk]; destruct (Hint k Hk); lra
        | right; left; repeat split; intros [k Hk]; destruct (Hint k Hk); lra
        | right; right; repeat split; first [ exists 0%Z; lra | exists 1%Z; lra | exists (-1)%Z; lra]
        | exfalso; lra].
Qed.
Example C06_nonvacuous : AngleDeg_is_left_of (mkAngle 170) (AA (mkAngle (-170))) = Ok true.
Proof.
  rewrite left_of_R by (unfold in_range; cbn; lra). f_equal. cbn.
  rcases; try lra; easy.
Qed.

(** Number arguments are first made into an AngleDeg. *)
Theorem C06_number_argument_R : forall (a : angle R) (x : R),
  exists b, AngleDeg_init [VNum x] [] = Ok b /\
   AngleDeg_is_left_of a (AN x) = AngleDeg_is_left_of a (AA b) /\
   AngleDeg_is_right_of a (AN x) = AngleDeg_is_right_of a (AA b) /\
   AngleDeg_is_left_equal_of a (AN x) = AngleDeg_is_left_equal_of a (AA b) /\
   AngleDeg_is_right_equal_of a (AN x) = AngleDeg_is_right_equal_of a (AA b).
Proof.
  intros a x. exists (mkAngle (nrm x)). cbn [AngleDeg_init AngleDeg_ctor_val].
  rewrite of_num_R. split; [easy|].
  unfold AngleDeg_is_left_of, AngleDeg_is_right_of, AngleDeg_is_left_equal_of, AngleDeg_is_right_equal_of, to_angle.
  rewrite of_num_R. cbn [bind]. easy.
Qed.

(** ** C07: is_within *)
(** x.is_within(l, r) is membership in the clockwise interval from l to r
    whenever neither of the pairs (l,x), (x,r), (l,r) is (-180,+180).  The
    answers for those representation pairs are given exactly too. *)
Theorem C07_is_within_R : forall x l r, in_range x -> in_range l -> in_range r ->
  exists w, AngleDeg_is_within x (AA l) (AA r) = Ok w /\
   (~ (a_degree l = -180 /\ a_degree r = 180) ->
    ~ (a_degree l = -180 /\ a_degree x = 180) ->
    ~ (a_degree x = -180 /\ a_degree r = 180) ->
     (w = true <-> exists tx tr, turn (a_degree l) (a_degree x) tx /\
                                 turn (a_degree l) (a_degree r) tr /\ tx <= tr)) /\
   (a_degree l = -180 -> a_degree r = 180 -> (w = true <-> a_degree x <> 0)) /\
   (a_degree l = -180 -> a_degree x = 180 -> a_degree r <> 180 -> w = false) /\
   (a_degree x = -180 -> a_degree r = 180 -> a_degree l <> -180 -> w = false).
Proof.
  intros x l r Hx Hl Hr. unfold AngleDeg_is_within, to_angle. cbn [bind].
  rewrite !left_equal_of_R by easy. cbn [bind].
  unfold in_range in *. destruct x as [x], l as [l], r as [r]; cbn [a_degree] in *.
  destruct (turn_exists _ _ Hl Hx) as [tx Hx'].
  destruct (turn_exists _ _ Hl Hr) as [tr Hr'].
  assert (HE : (exists tx tr, turn l x tx /\ turn l r tr /\ tx <= tr) <-> tx <= tr).
  { split; [intros [u [v [Hu [Hv Huv]]]]|eauto].
    rewrite (turn_unique _ _ _ _ Hx' Hu), (turn_unique _ _ _ _ Hr' Hv); easy. }
  pose proof (turn_cases _ _ _ Hl Hx Hx') as Cx.
  pose proof (turn_cases _ _ _ Hl Hr Hr') as Cr.
  clear Hx' Hr'.
  set (W := if _ || _ then _ else _).
  exists (orb (andb (Rle_bool 0 (r - l) && Rlt_bool (r - l) 180 || Rlt_bool (r - l) (-180))
     (andb (Rle_bool 0 (x - l) && Rlt_bool (x - l) 180 || Rlt_bool (x - l) (-180))
           (Rle_bool 0 (r - x) && Rlt_bool (r - x) 180 || Rlt_bool (r - x) (-180))))
     (andb (negb (Rle_bool 0 (r - l) && Rlt_bool (r - l) 180 || Rlt_bool (r - l) (-180)))
     (orb (Rle_bool 0 (x - l) && Rlt_bool (x - l) 180 || Rlt_bool (x - l) (-180))
           (Rle_bool 0 (r - x) && Rlt_bool (r - x) 180 || Rlt_bool (r - x) (-180))))).
  split.
  { unfold W. destruct (_ || _); [|destruct (Rle_bool 0 (r - x) && _ || _)]; cbn;
    rewrite ?orb_true_r, ?orb_false_r; try easy; destruct (_ || _); easy. }
  clear W. rewrite HE. clear HE.
  destruct Hx, Hl, Hr.
  destruct Cx as [(?&?&->)|[(?&?&->)|(?&->)]]; destruct Cr as [(?&?&->)|[(?&?&->)|(?&->)]];
  repeat (rcase1; try (exfalso; lra); cbn [andb orb negb]); (split; [|split; [|split]]); intros; try easy; try (exfalso; dlra);
  (split; intros; try discriminate; try (exfalso; dlra); try dlra).
  all: dhyps; try (exfalso; lra); try lra;
    exfalso; match goal with H : ~ (?a = ?b /\ ?c = ?d) |- _ => apply H; clear H; lra end.
Qed.
Example C07_nonvacuous :
  AngleDeg_is_within (mkAngle (-175)) (AA (mkAngle 170)) (AA (mkAngle (-170))) = Ok true /\
  AngleDeg_is_within (mkAngle 0) (AA (mkAngle 170)) (AA (mkAngle (-170))) = Ok false.
Proof.
  unfold AngleDeg_is_within, to_angle; cbn [bind].
  rewrite !left_equal_of_R by (unfold in_range; cbn; lra). cbn [bind a_degree].
  split; rcasesp; easy.
Qed.

(** ** C08: bisect *)
Lemma arg_R x : AngleDeg_of_arg x = Ok (mkAngle (nrm (arg_deg x))).
Proof. destruct x; cbn; [apply of_angle_R|apply of_num_R]. Qed.

(** The result always halves (l + r) modulo 360, so it is on the bisecting
    axis.  For non-collinear directions it is reached from r by half of the
    clockwise turn from r to l: it lies in the interval from right to left,
    i.e. outside the interval [left, right] of is_within.  For equal
    directions it is the opposite direction. *)
Theorem C08_bisect_R : forall l r : ang_arg R,
  exists b, AngleDeg_bisect l r = Ok b /\ -180 <= a_degree b <= 180 /\
   cong360 (2 * a_degree b) (arg_deg l + arg_deg r) /\
   (~ cong360 (2 * arg_deg l) (2 * arg_deg r) ->
      exists t, turn (arg_deg r) (arg_deg l) (2 * t) /\
                cong360 (arg_deg r + t) (a_degree b)) /\
   (cong360 (arg_deg l) (arg_deg r) -> a_degree b <> -180 ->
      cong360 (a_degree b) (arg_deg l + 180)).
Proof.
  intros l r. unfold AngleDeg_bisect. rewrite !arg_R. cbn [bind].
  unfold AngleDeg_sub. rewrite of_num_R. cbn [bind]. rewrite of_angle_R. cbn [bind].
  rewrite !degree_R. cbn [bind a_degree]. unfold AngleDeg_iadd, AngleDeg_add, ang_num.
  rewrite !nrm_nrm. cbn [bind a_degree].
  pose proof (nrm_range (arg_deg l)) as Hl; pose proof (nrm_cong (arg_deg l)) as Cl.
  pose proof (nrm_range (arg_deg r)) as Hr; pose proof (nrm_cong (arg_deg r)) as Cr.
  set (L := nrm (arg_deg l)) in *. set (R' := nrm (arg_deg r)) in *.
  rnum. pose proof (nrm_range (R' - L)) as Hd; pose proof (nrm_cong (R' - L)) as Cd.
  set (d := nrm (R' - L)) in *.
  rewrite ?of_num_R. cbn [bind]. rewrite ?of_num_R. cbn [a_degree].
  pose proof (nrm_cong (L + d * (1/2))) as CM. set (M := nrm (L + d * (1/2))) in *.
  destruct Cd as [kd Ed].
  assert (Hk : (kd = -1 \/ kd = 0 \/ kd = 1)%Z).
  { assert (-2 < IZR kd < 2) as [K1 K2] by lra. apply lt_IZR in K1; apply lt_IZR in K2. lia. }
  destruct Cl as [kl El], Cr as [kr Er], CM as [km Em].
  match goal with |- context [if ?c then _ else _] => set (cond := c) end.
  exists (if cond then mkAngle M else mkAngle (nrm (M + 180))).
  split; [destruct cond; easy|].
  pose proof (nrm_cong (M+180)) as [kb Eb].
  split; [|split; [|split]].
  - destruct cond; cbn [a_degree]; apply nrm_range.
  - destruct cond; cbn [a_degree].
    + exists (kd + kl + kr + 2 * km)%Z. rewrite !plus_IZR, mult_IZR. lra.
    + exists (kd + kl + kr + 2 * km + 2 * kb + 1)%Z. rewrite !plus_IZR, !mult_IZR. lra.
  - intros Hn.
    assert (Hn1 : L - R' <> 0).
    { intros E. apply Hn. exists (2 * (kr - kl))%Z. rewrite mult_IZR, minus_IZR. lra. }
    assert (Hn2 : L - R' <> 180).
    { intros E. apply Hn. exists (2 * (kr - kl) + 1)%Z. rewrite plus_IZR, mult_IZR, minus_IZR. lra. }
    assert (Hn3 : L - R' <> -180).
    { intros E. apply Hn. exists (2 * (kr - kl) - 1)%Z. rewrite minus_IZR, mult_IZR, minus_IZR. lra. }
    assert (Hn4 : L - R' <> -360).
    { intros E. apply Hn. exists (2 * (kr - kl) - 2)%Z. rewrite minus_IZR, mult_IZR, minus_IZR. lra. }
    assert (Hn5 : L - R' <> 360).
    { intros E. apply Hn. exists (2 * (kr - kl) + 2)%Z. rewrite plus_IZR, mult_IZR, minus_IZR. lra. }
    assert (HT : exists t, 0 <= 2 * t < 360 /\ ((2 * t = L - R') \/ 2 * t = L - R' + 360)).
    { destruct (Rle_dec R' L).
      - exists ((L - R') / 2); split; lra.
      - exists ((L - R' + 360) / 2); split; lra. }
    destruct HT as [t [Ht HT]]. exists t. split; [split; [exact Ht|]|].
    + destruct HT as [HT|HT].
      * exists (kl - kr)%Z. rewrite minus_IZR. lra.
      * exists (kl - kr + 1)%Z. rewrite plus_IZR, minus_IZR. lra.
    + unfold cond; clear cond Hn.
      destruct Hk as [->|[->| ->]]; destruct HT as [HT|HT]; repeat (rcase1; try (exfalso; lra); cbn [andb orb negb]);
      try (exfalso; lra); cbn [a_degree];
      first [ exists (- kr - km)%Z; rewrite minus_IZR, opp_IZR; lra
            | exists (- kr - km - kb)%Z; rewrite !minus_IZR, opp_IZR; lra
            | exists (- kr - km + 1)%Z; rewrite plus_IZR, minus_IZR, opp_IZR; lra
            | exists (- kr - km - 1)%Z; rewrite !minus_IZR, opp_IZR; lra
            | exists (- kr - km - kb - 1)%Z; rewrite !minus_IZR, opp_IZR; lra
            | exists (- kr - km - kb + 1)%Z; rewrite plus_IZR, !minus_IZR, opp_IZR; lra
            | idtac ].
  - intros [ks Es] Hb.
    assert (Hks : exists j : Z, L = R' + 360 * IZR j /\ (j = -1 \/ j = 0 \/ j = 1)%Z).
    { exists (ks + kl - kr)%Z. split. rewrite minus_IZR, plus_IZR. lra.
      assert (-2 < IZR (ks+kl-kr) < 2) as [K1 K2] by (rewrite minus_IZR, plus_IZR; lra).
      apply lt_IZR in K1; apply lt_IZR in K2. lia. }
    destruct Hks as [j [Hj Hj']].
    assert (d = 0) as Hd0.
    { apply cong360_small; [exists (kd - j)%Z; rewrite minus_IZR; lra|apply Rabs_def1; lra]. }
    unfold cond in *; clear cond.
    assert (M = L) as HML by (unfold M; rewrite Hd0; replace (L + 0 * (1/2)) with L by lra; now apply nrm_id).
    revert Hb.
    destruct Hj' as [->|[->| ->]]; repeat (rcase1; try (exfalso; lra); cbn [andb orb negb]); cbn [a_degree]; intros Hb;
    try (exfalso; lra); try (exists (kl + kb)%Z; rewrite plus_IZR; lra).
Qed.
Example C08_nonvacuous :
  AngleDeg_bisect (AN 0) (AN 90) = Ok (mkAngle (-135)) /\
  ~ cong360 (2 * arg_deg (AN 0)) (2 * arg_deg (AN 90)) /\
  AngleDeg_is_within (mkAngle (-135)) (AN 0) (AN 90) = Ok false.
Proof.
  split; [|split].
  - destruct (C08_bisect_R (AN 0) (AN 90)) as (b & -> & Hb & _ & H & _).
    destruct b as [b]; cbn [a_degree arg_deg] in *. do 2 f_equal.
    destruct H as (t & Ht & Hc).
    + intros [k Hk]. assert (IZR (2 * k) = IZR (-1)) as E by (rewrite mult_IZR; lra).
      apply eq_IZR in E. lia.
    + assert (2 * t = 270) as Et.
      { eapply turn_unique; [exact Ht|]. split; [lra|]. exists 1%Z; lra. }
      symmetry; apply cong360_small; [|apply Rabs_def1; lra].
      eapply cong360_trans; [|exact Hc]. exists (-1)%Z. lra.
  - cbn. intros [k Hk]. assert (IZR (2 * k) = IZR (-1)) as E by (rewrite mult_IZR; lra).
    apply eq_IZR in E. lia.
  - unfold AngleDeg_is_within, to_angle. rewrite !of_num_R. cbn [bind].
    rewrite !nrm_id by lra.
    rewrite !left_equal_of_R by (unfold in_range; cbn; lra). cbn [bind a_degree].
    rcasesp; easy.
Qed.

(** Opposite directions: the result is a quarter turn away from both, on the
    side of [right + 90] when left's degree is the smaller one and on the
    side of [left + 90] otherwise. *)
Theorem C08_opposite_R : forall l r : R, -180 <= l <= 180 -> -180 <= r <= 180 ->
  exists b, AngleDeg_bisect (AN l) (AN r) = Ok b /\
    (l = r - 180 -> cong360 (a_degree b) (r + 90)) /\ (l = r + 180 -> cong360 (a_degree b) (l + 90)).
Proof.
  intros l r Hl Hr. unfold AngleDeg_bisect. rewrite !arg_R. cbn [bind arg_deg]. rewrite !nrm_id by assumption.
  unfold AngleDeg_sub. rewrite of_num_R. cbn [bind]. rewrite of_angle_R. cbn [bind].
  rewrite !degree_R. cbn [bind a_degree]. unfold AngleDeg_iadd, AngleDeg_add, ang_num. rewrite !nrm_nrm. cbn [bind a_degree arg_deg].
  rewrite (nrm_id l), (nrm_id r) by assumption. rnum. rewrite ?of_num_R. cbn [bind]. rewrite ?of_num_R. cbn [a_degree].
  match goal with |- context [if ?c then _ else _] => set (cond := c) end.
  exists (if cond then mkAngle (nrm (l + nrm (r - l) * (1/2))) else mkAngle (nrm (nrm (l + nrm (r - l) * (1/2)) + 180))).
  split; [destruct cond; reflexivity|]. split; intros E; unfold cond; clear cond.
  - rewrite (nrm_id (r - l)) by lra.
    pose proof (nrm_cong (l + (r - l) * (1/2))) as [k Ek]. set (M := nrm (l + (r - l) * (1/2))) in *.
    pose proof (nrm_cong (M + 180)) as [j Ej].
    repeat (rcase1; try (exfalso; lra); cbn [andb orb negb]). cbn [a_degree]. exists (k + j)%Z. rewrite plus_IZR. lra.
  - rewrite (nrm_id (r - l)) by lra.
    pose proof (nrm_cong (l + (r - l) * (1/2))) as [k Ek]. set (M := nrm (l + (r - l) * (1/2))) in *.
    pose proof (nrm_cong (M + 180)) as [j Ej].
    repeat (rcase1; try (exfalso; lra); cbn [andb orb negb]). cbn [a_degree]. exists (k + j)%Z. rewrite plus_IZR. lra.
Qed.
Example C08_opposite_nonvacuous : -180 <= -90 <= 180 /\ -180 <= 90 <= 180 /\ -90 = 90 - 180. Proof. lra. Qed.

(** ** C10: equality *)
Theorem C10_eq_R : forall a b : angle R, in_range a -> in_range b ->
  exists e, AngleDeg_eq a (AA b) = Ok e /\
    (e = true <-> Rabs (a_degree a - a_degree b) < 1 / 1000000) /\
    AngleDeg_eq a (AA a) = Ok true /\
    AngleDeg_eq b (AA a) = Ok e.
Proof.
  intros a b Ha Hb. unfold AngleDeg_eq, ang_num. rewrite !degree_in by easy. cbn [bind]. rnum.
  eexists; split; [reflexivity|]. split; [apply Rlt_bool_iff|]. split.
  - f_equal. apply Rlt_bool_true. replace (a_degree a - a_degree a) with 0 by ring. rewrite Rabs_R0; lra.
  - now rewrite Rabs_minus_sym.
Qed.
(** Not transitive, and not invariant under the choice of representative. *)
Theorem C10_eq_refuted :
  (exists a b c : angle R, in_range a /\ in_range b /\ in_range c /\
     AngleDeg_eq a (AA b) = Ok true /\ AngleDeg_eq b (AA c) = Ok true /\
     AngleDeg_eq a (AA c) = Ok false) /\
  (exists a b : angle R, in_range a /\ in_range b /\ cong360 (a_degree a) (a_degree b) /\
     AngleDeg_eq a (AA b) = Ok false).
Proof.
  split.
  - exists (mkAngle 0), (mkAngle (1/2000000)), (mkAngle (1/1000000)).
    unfold in_range; cbn [a_degree]. repeat (split; [lra|]).
    unfold AngleDeg_eq, ang_num. rewrite !degree_in by (unfold in_range; cbn; lra). cbn [bind a_degree]. rnum.
    unfold Rabs. repeat split; f_equal; repeat destruct Rcase_abs; rcasesp; easy.
  - exists (mkAngle 180), (mkAngle (-180)). unfold in_range; cbn [a_degree]. repeat (split; [lra|]).
    split; [exists 1%Z; lra|].
    unfold AngleDeg_eq, ang_num. rewrite !degree_in by (unfold in_range; cbn; lra). cbn [bind a_degree]. rnum.
    unfold Rabs. f_equal; repeat destruct Rcase_abs; rcasesp; easy.
Qed.

(** ** C11: trigonometry sees only the direction *)
Lemma cos_cong x y : cong360 x y -> cos (rad x) = cos (rad y) /\ sin (rad x) = sin (rad y).
Proof.
  intros [k ->]. unfold rad.
  replace ((y + 360 * IZR k) * (PI / 180)) with (y * (PI/180) + 2 * IZR k * PI) by field.
  split.
  - destruct (Z_le_gt_dec 0 k) as [Hk|Hk].
    + rewrite <- (Z2Nat.id k) by easy. rewrite <- INR_IZR_INZ. apply cos_period.
    + replace (IZR k) with (- INR (Z.to_nat (-k))).
      2:{ rewrite INR_IZR_INZ, Z2Nat.id by lia. rewrite opp_IZR; ring. }
      rewrite <- (cos_period (_ + _) (Z.to_nat (-k))). f_equal. ring.
  - destruct (Z_le_gt_dec 0 k) as [Hk|Hk].
    + rewrite <- (Z2Nat.id k) by easy. rewrite <- INR_IZR_INZ. apply sin_period.
    + replace (IZR k) with (- INR (Z.to_nat (-k))).
      2:{ rewrite INR_IZR_INZ, Z2Nat.id by lia. rewrite opp_IZR; ring. }
      rewrite <- (sin_period (_ + _) (Z.to_nat (-k))). f_equal. ring.
Qed.

Theorem C11_trig_R : forall x : R,
  exists a, AngleDeg_init [VNum x] [] = Ok a /\
    AngleDeg_cos a = Ok (cos (rad x)) /\ AngleDeg_sin a = Ok (sin (rad x)) /\
    AngleDeg_tan a = Ok (tan (rad x)) /\
    AngleDeg_radian a = Ok (rad (a_degree a)).
Proof.
  intros x. exists (mkAngle (nrm x)). cbn [AngleDeg_init AngleDeg_ctor_val].
  rewrite of_num_R. split; [easy|].
  destruct (cos_cong _ _ (nrm_cong x)) as [Hc Hs].
  unfold AngleDeg_cos, AngleDeg_sin, AngleDeg_tan, AngleDeg_radian. rewrite degree_R; cbn [bind].
  rewrite DEG2RAD_R. cbn [a_degree]. rewrite nrm_nrm. rnum.
  fold (rad (nrm x)). unfold tan. rewrite Hc, Hs. easy.
Qed.
Example C11_nonvacuous : cos (rad 720) = 1.
Proof. destruct (cos_cong 720 0) as [-> _]; [exists 2%Z; lra|]. unfold rad. rewrite Rmult_0_l. apply cos_0. Qed.
