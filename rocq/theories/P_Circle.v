(** * P_Circle: properties C49-C54 of Circle2D *)
From Coq Require Import ZArith List Bool String Reals Lra Lia Psatz.
From Flocq Require Import Core BinarySingleNaN.
From Verif Require Import Base Types NumR NumF R_Tac Spec Abs M_Angle M_Vector M_Line M_Ray M_Triangle M_Segment M_Circle
  L_Angle L_Trig P_Angle P_Vector P_Line L_Seg P_Segment P_Ray P_Triangle.
Import ListNotations.
Local Open Scope R_scope.

(** The circle as a point set. *)
Definition on_circle (c : circle R) (p : point) : Prop := edist (pt (c_center c)) p = c_radius c.

Lemma edist_norm2 p q r : 0 <= r -> (edist p q = r <-> norm2 (psub p q) = r * r).
Proof.
  intros Hr. unfold edist. split.
  - intros <-. symmetry. apply norm_sq.
  - intros H. now apply norm_eq.
Qed.
Lemma edist_lt_norm2 p q r : 0 <= r -> (edist p q < r <-> norm2 (psub p q) < r * r).
Proof.
  intros Hr. pose proof (norm_nonneg (psub p q)). rewrite <- (norm_sq (psub p q)). unfold edist.
  split; intros; nra.
Qed.

(** ** C49 *)
Inductive circle_op (T : Type) := COAssign (center : vec T) (radius : T).
Arguments COAssign {T}.
Section Hist.
  Context {T : Type} `{Num T}.
  Definition circle_run (p : vec T) (r : T) (ops : list (circle_op T)) : circle T :=
    List.fold_left (fun c o => match o with COAssign p r => Circle2D_assign c p r end) ops (Circle2D_init p r).
  Lemma circle_run_inv (P : circle T -> Prop) : (forall p r, P (Circle2D_init p r)) -> forall p r ops, P (circle_run p r ops).
  Proof.
    intros HI p r ops. unfold circle_run. assert (Q : P (Circle2D_init p r)) by apply HI. revert Q. generalize (Circle2D_init p r).
    induction ops as [|[p' r'] ops IH]; intros c Q; cbn; [easy|]. apply IH. apply (HI p' r').
  Qed.
End Hist.
Theorem C49_basics_R : forall (p : vec R) (r : R) (ops : list (circle_op R)) (q : vec R),
  let c := circle_run p r ops in
  0 <= c_radius c /\
  Circle2D_area c = PI * c_radius c ^ 2 /\
  exists b, Circle2D_contains c q = Ok b /\ (b = true <-> edist (pt (c_center c)) (pt q) < c_radius c).
Proof.
  intros p r ops q c.
  assert (H0 : 0 <= c_radius c).
  { unfold c. apply (circle_run_inv (fun c => 0 <= c_radius c)). intros p' r'. unfold Circle2D_init; rnum. cbn. rcasesp; lra. }
  split; [easy|]. split. { unfold Circle2D_area; rnum. ring. }
  unfold Circle2D_contains. rewrite dist2_R. cbn [bind]. rnum. eexists; split; [reflexivity|].
  rewrite Rlt_bool_iff. now rewrite edist_lt_norm2.
Qed.
Example C49_nonvacuous : c_radius (circle_run (mkVec 0 0 true) (-3) [COAssign (mkVec 1 1 true) 2]) = 2.
Proof. unfold circle_run; cbn. unfold Circle2D_assign; rnum; cbn. rewrite Rlt_bool_false; lra. Qed.
(** A negative radius is replaced by 0, any other is kept. *)
Theorem C49_radius_R : forall (p : vec R) (r : R), c_radius (Circle2D_init p r) = Rmax 0 r.
Proof. intros p r. unfold Circle2D_init; rnum; cbn. unfold Rmax. destruct (Rle_dec 0 r); rcasesp; lra. Qed.
(** In double arithmetic no history produces a negative radius either. *)
Theorem C49_radius_F : forall (L : libm) (p : vec F) (r : F) (ops : list (circle_op F)),
  Bltb (c_radius (@circle_run F (NumF L) p r ops)) (B754_zero false) = false.
Proof.
  intros L p r ops. apply (@circle_run_inv F (NumF L) (fun c => Bltb (c_radius c) (B754_zero false) = false)).
  intros p' r'. unfold Circle2D_init; cbn. change (F_of_Z 0) with (B754_zero false : F).
  destruct (Bltb r' (B754_zero false)) eqn:E; [easy|exact E].
Qed.

(** ** C50 *)
Theorem C50_quadratic_R : forall a b c : R,
  (a = 0 -> quadratic_f a b c = Raise GenericException) /\
  (a <> 0 -> b * b - 4 * a * c >= 1/1000000 ->
     exists s1 s2, quadratic_f a b c = Ok (Some (s1, s2)) /\ s1 <> s2 /\
       forall x, a * x * x + b * x + c = 0 <-> x = s1 \/ x = s2) /\
  (a <> 0 -> b * b - 4 * a * c <= - (1/1000000) ->
     quadratic_f a b c = Ok None /\ forall x, a * x * x + b * x + c <> 0) /\
  (a <> 0 -> Rabs (b * b - 4 * a * c) < 1/1000000 ->
     exists s, quadratic_f a b c = Ok (Some (s, s)) /\ 2 * a * s + b = 0 /\
       Rabs (4 * a * (a * s * s + b * s + c)) < 1/1000000).
Proof.
  intros a b c. unfold quadratic_f; rnum. split; [|split; [|split]].
  - intros ->. now rewrite Req_bool_true.
  - intros Ha Hd. rewrite Req_bool_false by easy. rewrite Rlt_bool_false by (rewrite Rabs_pos_eq; lra).
    rewrite Rlt_bool_false by lra. rewrite Rsqrt_py_ok by lra. cbn [bind]. rewrite !Rdiv_py_ok by lra. cbn [bind].
    do 2 eexists. split; [reflexivity|].
    set (d := sqrt (b * b - 4 * a * c)). assert (Hdd : d * d = b * b - 4 * a * c) by (apply sqrt_sqrt; lra).
    assert (Hdn : 0 < d) by (apply sqrt_lt_R0; lra).
    assert (FA : forall x, 4 * a * (a * x * x + b * x + c) = (2 * a * x + b - d) * (2 * a * x + b + d)).
    { intros x. transitivity ((2 * a * x + b) * (2 * a * x + b) - d * d); [rewrite Hdd; ring|ring]. }
    split.
    + intros E. assert (d = 0); [|lra]. apply Rmult_eq_reg_r with (/ a); [|now apply Rinv_neq_0_compat].
      assert ((- b + d) / (2 * a) - (- b - d) / (2 * a) = d * / a) by (field; easy). lra.
    + intros x. split.
      * intros E. specialize (FA x). rewrite E, Rmult_0_r in FA. symmetry in FA. apply Rmult_integral in FA.
        destruct FA as [E'|E']; [left|right]; replace x with ((2 * a * x) / (2 * a)) by (field; easy); f_equal; lra.
      * intros E. assert (K : 4 * a * (a * x * x + b * x + c) = 0).
        { rewrite FA. destruct E as [->| ->]; field; easy. }
        apply Rmult_integral in K. destruct K; [lra|easy].
  - intros Ha Hd. rewrite Req_bool_false by easy. rewrite Rlt_bool_false by (rewrite Rabs_left; lra).
    rewrite Rlt_bool_true by lra. split; [easy|]. intros x E.
    assert (4 * a * (a * x * x + b * x + c) = (2 * a * x + b) * (2 * a * x + b) - (b * b - 4 * a * c)) by ring.
    rewrite E in H. pose proof (Rle_0_sqr (2 * a * x + b)) as Z. unfold Rsqr in Z. lra.
  - intros Ha Hd. rewrite Req_bool_false by easy. rewrite Rlt_bool_true by easy. rewrite Rdiv_py_ok by lra. cbn [bind].
    eexists; split; [reflexivity|]. split; [field; easy|].
    match goal with |- Rabs ?x < _ => replace x with (- (b * b - 4 * a * c)) by (field; easy) end. now rewrite Rabs_Ropp.
Qed.
Example C50_nonvacuous : 1 <> 0 /\ (-3) * (-3) - 4 * 1 * 2 >= 1/1000000.
Proof. split; lra. Qed.

(** ** C51 *)
(** The line the code works with: an x coefficient below 1e-6 counts as 0. *)
Definition seen_line (l : line R) : line R :=
  mkLine (if Rlt_dec (Rabs (l_a l)) (1/1000000) then 0 else l_a l) (l_b l) (l_c l).
(** squared distance of the center to the line *)
Definition line_dist2 (c : circle R) (l : line R) : R :=
  let k := l_a l * vx (c_center c) + l_b l * vy (c_center c) + l_c l in
  k * k / (l_a l * l_a l + l_b l * l_b l).
(** scale between r^2 - dist^2 and the discriminant *)
Definition disc_scale (l : line R) : R :=
  if Rlt_dec (Rabs (l_a l)) (1/1000000) then 4 else 4 * (1 + (l_b l / l_a l) * (l_b l / l_a l)).

Lemma merge_R p q :
  (tiny (vx p - vx q) (vy p - vy q) -> merge_weakly p q = [p]) /\
  (~ tiny (vx p - vx q) (vy p - vy q) -> merge_weakly p q = [p; q]).
Proof.
  unfold merge_weakly, Vector2D_equals_weakly; rnum. unfold tiny. split; intros H.
  - destruct H. now rewrite !Rlt_bool_true.
  - destruct (Rlt_bool_spec (Rabs (vx p - vx q)) (1/1000000)); destruct (Rlt_bool_spec (Rabs (vy p - vy q)) (1/1000000)); cbn [andb]; try easy.
    exfalso; now apply H.
Qed.
Lemma on_circle_iff c p : 0 <= c_radius c ->
  (on_circle c p <-> (px p - vx (c_center c)) * (px p - vx (c_center c)) + (py p - vy (c_center c)) * (py p - vy (c_center c)) = c_radius c * c_radius c).
Proof.
  intros H. unfold on_circle. rewrite edist_norm2 by easy. unfold norm2, psub, pt; cbn [px py fst snd].
  split; intros <-; unfold px, py; cbn; ring.
Qed.
Lemma tiny_refl x y : tiny (x - x) (y - y).
Proof. unfold tiny. rewrite !Rminus_eq_0, Rabs_R0. lra. Qed.
(** foot of the perpendicular *)
Lemma foot_nearest l p q : lpts l p -> lpts l q -> (l_a l <> 0 \/ l_b l <> 0) -> forall m : point,
  - l_b l * (px p - px m) + l_a l * (py p - py m) = 0 -> edist m p <= edist m q.
Proof.
  intros Hp Hq Hn m E. unfold lpts, on_line in *. destruct l as [a b c]; cbn in *.
  unfold edist, norm. apply sqrt_le_1_alt. unfold norm2, psub; cbn. unfold px, py in *.
  set (x := fst p) in *. set (y := snd p) in *. set (x' := fst q) in *. set (y' := snd q) in *. set (u := fst m) in *. set (v := snd m) in *.
  assert (D : a * (x' - x) + b * (y' - y) = 0) by lra.
  (* q - p is parallel to (-b, a) *)
  assert (K : (x' - x) * (x - u) + (y' - y) * (y - v) = 0).
  { assert (a * ((x' - x) * (x - u) + (y' - y) * (y - v)) = 0).
    { replace (a * ((x' - x) * (x - u) + (y' - y) * (y - v))) with (a * (x' - x) * (x - u) + (y' - y) * (a * (y - v))) by ring.
      replace (a * (y - v)) with (b * (x - u)) by lra. replace (a * (x' - x)) with (- (b * (y' - y))) by lra. ring. }
    assert (b * ((x' - x) * (x - u) + (y' - y) * (y - v)) = 0).
    { replace (b * ((x' - x) * (x - u) + (y' - y) * (y - v))) with ((x' - x) * (b * (x - u)) + b * (y' - y) * (y - v)) by ring.
      replace (b * (x - u)) with (a * (y - v)) by lra. replace (b * (y' - y)) with (- (a * (x' - x))) by lra. ring. }
    destruct Hn as [Hn|Hn]; [apply Rmult_eq_reg_l with a|apply Rmult_eq_reg_l with b]; lra. }
  replace ((u - x') * (u - x') + (v - y') * (v - y')) with ((u - x) * (u - x) + (v - y) * (v - y) + ((x' - x) * (x' - x) + (y' - y) * (y' - y)) + 2 * ((x' - x) * (x - u) + (y' - y) * (y - v))) by ring.
  rewrite K. pose proof (Rle_0_sqr (x' - x)) as Z1. pose proof (Rle_0_sqr (y' - y)) as Z2. unfold Rsqr in Z1, Z2. lra.
Qed.
Lemma scale_pos l : ~ tiny (l_a l) (l_b l) -> 0 < disc_scale l /\ (l_a (seen_line l) <> 0 \/ l_b (seen_line l) <> 0).
Proof.
  intros H. unfold disc_scale, seen_line; cbn. destruct (Rlt_dec (Rabs (l_a l)) (1/1000000)) as [H1|H1].
  - split; [lra|]. right. intros E. apply H. split; [easy|]. rewrite E, Rabs_R0; lra.
  - split; [|left; intros E; rewrite E, Rabs_R0 in H1; lra]. pose proof (Rle_0_sqr (l_b l / l_a l)) as Q. unfold Rsqr in Q. lra.
Qed.

Theorem C51_intersection_line_R : forall (c : circle R) (l : line R), 0 <= c_radius c ->
  let res := Circle2D_intersection c (VLine l) in
  let r := c_radius c in
  let l' := seen_line l in
  let D := disc_scale l * (r * r - line_dist2 c l') in
  (tiny (l_a l) (l_b l) -> res = Ok []) /\
  (~ tiny (l_a l) (l_b l) ->
    (** crossing: exactly the two common points (the second dropped if weakly equal to the first) *)
    (D >= 1/1000000 -> exists p q : vec R, pt p <> pt q /\
        (forall x, lpts l' x /\ on_circle c x <-> x = pt p \/ x = pt q) /\
        (tiny (vx p - vx q) (vy p - vy q) -> res = Ok [p]) /\
        (~ tiny (vx p - vx q) (vy p - vy q) -> res = Ok [p; q])) /\
    (** apart *)
    (D <= - (1/1000000) -> res = Ok [] /\ forall x, ~ (lpts l' x /\ on_circle c x)) /\
    (** nearly tangent: the foot of the perpendicular from the center *)
    (Rabs D < 1/1000000 -> exists p, res = Ok [p] /\ lpts l' (pt p) /\
        forall x, lpts l' x -> edist (pt (c_center c)) (pt p) <= edist (pt (c_center c)) x)).
Proof.
  intros c l Hr res r l' D. cbn [Circle2D_intersection] in res.
  split.
  { intros [H1 H2]. unfold res, Circle2D_intersection_line; rnum. now rewrite !Rlt_bool_true. }
  intros HT. destruct (scale_pos l HT) as [_ Hne]. fold l' in Hne.
  destruct (Rlt_dec (Rabs (l_a l)) (1/1000000)) as [Ha|Ha].
  - (* horizontal *)
    assert (Hb : ~ Rabs (l_b l) < 1/1000000) by (intros K; now apply HT).
    assert (Hb0 : l_b l <> 0) by (intros E; rewrite E, Rabs_R0 in Hb; lra).
    assert (El : l' = mkLine 0 (l_b l) (l_c l)).
    { unfold l', seen_line. destruct (Rlt_dec (Rabs (l_a l)) (1/1000000)); [easy|contradiction]. }
    set (x0 := vx (c_center c)) in *. set (y0 := vy (c_center c)) in *.
    assert (ER : res = match quadratic_f 1 (-2 * x0) (x0 * x0 + (l_c l / l_b l + y0) * (l_c l / l_b l + y0) - r * r) with
                       | Ok (Some (s1, s2)) => Ok (merge_weakly (V s1 (- l_c l / l_b l)) (V s2 (- l_c l / l_b l)))
                       | Ok None => Ok [] | Raise e => Raise e end).
    { unfold res, Circle2D_intersection_line; rnum. rewrite Rlt_bool_true by easy. rewrite Rlt_bool_false by lra.
      rewrite !Rpowi_py_2. rewrite !Rdiv_py_ok by easy. rewrite !Rpowi_py_2. reflexivity. }
    assert (ED : D = (-2 * x0) * (-2 * x0) - 4 * 1 * (x0 * x0 + (l_c l / l_b l + y0) * (l_c l / l_b l + y0) - r * r)).
    { unfold D, disc_scale, line_dist2. rewrite El. cbn [l_a l_b l_c]. fold x0 y0. destruct (Rlt_dec (Rabs (l_a l)) (1/1000000)); [|contradiction]. field. easy. }
    assert (ON : forall x, lpts l' x <-> py x = - l_c l / l_b l).
    { intros x. rewrite El. unfold lpts, on_line; cbn [l_a l_b l_c]. split; intros K.
      - apply Rmult_eq_reg_l with (l_b l); [|easy]. field_simplify; [lra|easy].
      - rewrite K. field. easy. }
    assert (OC : forall x, lpts l' x -> (on_circle c x <-> 1 * px x * px x + (-2 * x0) * px x + (x0 * x0 + (l_c l / l_b l + y0) * (l_c l / l_b l + y0) - r * r) = 0)).
    { intros x Hx. rewrite on_circle_iff by easy. apply ON in Hx. rewrite Hx. fold x0 y0 r.
      replace (- l_c l / l_b l - y0) with (- (l_c l / l_b l + y0)) by (field; easy). split; intros; lra. }
    destruct (C50_quadratic_R 1 (-2 * x0) (x0 * x0 + (l_c l / l_b l + y0) * (l_c l / l_b l + y0) - r * r)) as (_ & Q1 & Q2 & Q3).
    rewrite <- ED in Q1, Q2, Q3.
    split; [|split].
    + intros HD. destruct (Q1 ltac:(lra) HD) as (s1 & s2 & E & Hs & Hroots). rewrite E in ER.
      set (p := V s1 (- l_c l / l_b l)) in *. set (q := V s2 (- l_c l / l_b l)) in *. exists p, q.
      split. { intros K. injection K as K. contradiction. }
      split.
      * intros x. split.
        -- intros [L1 L2]. apply OC in L2; [|easy]. apply Hroots in L2. apply ON in L1.
           destruct L2; [left|right]; apply point_eq; cbn; easy.
        -- intros Hx. assert (L1 : lpts l' x) by (apply ON; destruct Hx as [->| ->]; reflexivity).
           split; [easy|]. apply OC; [easy|]. apply Hroots. destruct Hx as [->| ->]; cbn; auto.
      * destruct (merge_R p q) as [M1 M2]. split; intros K; rewrite ER; [rewrite M1|rewrite M2]; easy.
    + intros HD. destruct (Q2 ltac:(lra) HD) as (E & Hno). rewrite E in ER. split; [easy|].
      intros x [L1 L2]. apply OC in L2; [|easy]. now apply Hno in L2.
    + intros HD. destruct (Q3 ltac:(lra) HD) as (s & E & Hs & _). rewrite E in ER.
      exists (V s (- l_c l / l_b l)). split. { rewrite ER. f_equal. apply merge_R. apply tiny_refl. }
      split; [now apply ON|]. intros x Hx. apply (foot_nearest l'); try easy; [now apply ON|].
      rewrite El; cbn. fold x0. replace s with x0 by lra. ring.
  - (* general *)
    assert (Ha0 : l_a l <> 0) by (intros E; rewrite E, Rabs_R0 in Ha; lra).
    assert (El : l' = l).
    { unfold l', seen_line. destruct (Rlt_dec (Rabs (l_a l)) (1/1000000)); [contradiction|]. now destruct l. }
    set (x0 := vx (c_center c)) in *. set (y0 := vy (c_center c)) in *.
    set (qa := 1 + (l_b l / l_a l) * (l_b l / l_a l)).
    set (qb := 2 * (- y0 + (l_c l / l_a l + x0) * (l_b l / l_a l))).
    set (qc := (l_c l / l_a l + x0) * (l_c l / l_a l + x0) + y0 * y0 - r * r).
    assert (PA : 0 < qa). { unfold qa. pose proof (Rle_0_sqr (l_b l / l_a l)) as Q. unfold Rsqr in Q. lra. }
    set (X := fun y => - (l_b l * y + l_c l) / l_a l).
    assert (ER : res = match quadratic_f qa qb qc with
                       | Ok (Some (s1, s2)) => Ok (merge_weakly (V (X s1) s1) (V (X s2) s2))
                       | Ok None => Ok [] | Raise e => Raise e end).
    { unfold res, Circle2D_intersection_line, Line2D_get_x; rnum. rewrite !Rlt_bool_false by lra.
      rewrite !Rdiv_py_ok by easy. rewrite !Rpowi_py_2. fold x0 y0. fold r. fold qa qb qc.
      destruct (quadratic_f qa qb qc) as [[[s1 s2]|]|]; try easy. rewrite !Rdiv_py_ok by easy. reflexivity. }
    assert (PAB : l_a l * l_a l + l_b l * l_b l <> 0).
    { assert (0 < l_a l * l_a l) by (destruct (Rtotal_order (l_a l) 0) as [|[|]]; [nra|contradiction|nra]). pose proof (Rle_0_sqr (l_b l)) as Q. unfold Rsqr in Q. lra. }
    assert (ED : D = qb * qb - 4 * qa * qc).
    { unfold D, disc_scale, line_dist2. rewrite El. fold x0 y0. destruct (Rlt_dec (Rabs (l_a l)) (1/1000000)); [contradiction|]. unfold qa, qb, qc. field. split; easy. }
    assert (ON : forall x, lpts l' x <-> px x = X (py x)).
    { intros x. rewrite El. unfold lpts, on_line, X. split; intros K.
      - apply Rmult_eq_reg_l with (l_a l); [|easy]. field_simplify; [lra|easy].
      - rewrite K. field. easy. }
    assert (OC : forall x, lpts l' x -> (on_circle c x <-> qa * py x * py x + qb * py x + qc = 0)).
    { intros x Hx. rewrite on_circle_iff by easy. apply ON in Hx. rewrite Hx. fold x0 y0 r.
      assert (EQ : (X (py x) - x0) * (X (py x) - x0) + (py x - y0) * (py x - y0) - r * r = qa * py x * py x + qb * py x + qc).
      { unfold X, qa, qb, qc. field. easy. }
      split; intros; lra. }
    destruct (C50_quadratic_R qa qb qc) as (_ & Q1 & Q2 & Q3).
    rewrite <- ED in Q1, Q2, Q3.
    split; [|split].
    + intros HD. destruct (Q1 ltac:(lra) HD) as (s1 & s2 & E & Hs & Hroots). rewrite E in ER.
      set (p := V (X s1) s1) in *. set (q := V (X s2) s2) in *. exists p, q.
      split. { intros K. injection K as _ K. contradiction. }
      split.
      * intros x. split.
        -- intros [L1 L2]. apply OC in L2; [|easy]. apply Hroots in L2. apply ON in L1.
           destruct L2 as [L2|L2]; [left|right]; rewrite L2 in L1; apply point_eq; cbn; easy.
        -- intros Hx. assert (L1 : lpts l' x) by (apply ON; destruct Hx as [->| ->]; reflexivity).
           split; [easy|]. apply OC; [easy|]. apply Hroots. destruct Hx as [->| ->]; cbn; auto.
      * destruct (merge_R p q) as [M1 M2]. split; intros K; rewrite ER; [rewrite M1|rewrite M2]; easy.
    + intros HD. destruct (Q2 ltac:(lra) HD) as (E & Hno). rewrite E in ER. split; [easy|].
      intros x [L1 L2]. apply OC in L2; [|easy]. now apply Hno in L2.
    + intros HD. destruct (Q3 ltac:(lra) HD) as (s & E & Hs & _). rewrite E in ER.
      exists (V (X s) s). split. { rewrite ER. f_equal. apply merge_R. apply tiny_refl. }
      split; [now apply ON|]. intros x Hx. apply (foot_nearest l'); try easy; [now apply ON|].
      rewrite El; cbn. fold x0 y0. apply Rmult_eq_reg_l with (2 * / l_a l); [|apply Rmult_integral_contrapositive; split; [lra|now apply Rinv_neq_0_compat]].
      rewrite Rmult_0_r. rewrite <- Hs. unfold X, qa, qb. field. easy.
Qed.
Example C51_nonvacuous : let c := mkCircle (mkVec 0 0 true) 5 in let l := mkLine 1 0 (-3) in
  ~ tiny (l_a l) (l_b l) /\ disc_scale l * (c_radius c * c_radius c - line_dist2 c (seen_line l)) >= 1/1000000.
Proof.
  cbn. split.
  - intros [H _]. rewrite Rabs_pos_eq in H; lra.
  - unfold disc_scale, line_dist2, seen_line; cbn. destruct (Rlt_dec (Rabs 1) (1/1000000)) as [H|H].
    + rewrite Rabs_pos_eq in H; lra.
    + field_simplify; lra.
Qed.
(** When 0 < |a| < 1e-6 the returned points are on [seen_line], not on the line. *)
Theorem C51_nearly_horizontal_refuted : exists (c : circle R) (l : line R) (p q : vec R),
  Circle2D_intersection c (VLine l) = Ok [p; q] /\ ~ lpts l (pt p) /\ ~ lpts l (pt q).
Proof.
  set (c := mkCircle (mkVec 0 0 true) 1). set (l := mkLine (1/2000000) 1 0).
  destruct (C51_intersection_line_R c l) as (_ & H); [cbn; lra|].
  assert (SL : seen_line l = mkLine 0 1 0).
  { unfold seen_line; cbn. destruct (Rlt_dec (Rabs (1/2000000)) (1/1000000)) as [K|K]; [easy|]. rewrite Rabs_pos_eq in K; lra. }
  destruct H as (H & _). { intros [_ K]; cbn in K. rewrite Rabs_pos_eq in K; lra. }
  destruct H as (p & q & Hpq & Hx & _ & Hr).
  { rewrite SL. unfold disc_scale, line_dist2; cbn. destruct (Rlt_dec (Rabs (1/2000000)) (1/1000000)) as [K|K]; [field_simplify; lra|]. rewrite Rabs_pos_eq in K; lra. }
  rewrite SL in Hx.
  assert (P1 : forall x, x = pt p \/ x = pt q -> py x = 0 /\ (px x = 1 \/ px x = -1)).
  { intros x K. apply Hx in K. destruct K as [K1 K2]. apply on_circle_iff in K2; [|cbn; lra]. unfold lpts, on_line in K1. cbn in K1, K2.
    unfold px, py in *. assert (Y : snd x = 0) by lra. rewrite Y in K2. split; [easy|].
    assert (Z : (fst x - 1) * (fst x + 1) = 0) by lra. apply Rmult_integral in Z. destruct Z; [left|right]; lra. }
  destruct (P1 (pt p) (or_introl eq_refl)) as [PY PX]. destruct (P1 (pt q) (or_intror eq_refl)) as [QY QX].
  exists c, l, p, q. split.
  - apply Hr. intros [T _]. apply Hpq. apply point_eq; [|congruence]. cbn in PX, QX |- *.
    destruct PX as [PX|PX], QX as [QX|QX]; rewrite PX, QX in *; try easy.
    + rewrite Rabs_pos_eq in T; lra. + rewrite Rabs_left in T; lra.
  - unfold lpts, on_line; cbn [l_a l_b l_c l]. split; destruct PX, QX; lra.
Qed.

Lemma line_total_R (c : circle R) l : exists sols, Circle2D_intersection_line c l = Ok sols.
Proof.
  assert (Q : forall a b k, a <> 0 -> exists o, quadratic_f a b k = Ok o).
  { intros a b k Ha. destruct (C50_quadratic_R a b k) as (_ & Q1 & Q2 & Q3).
    destruct (Rlt_dec (Rabs (b * b - 4 * a * k)) (1/1000000)) as [H|H]. { destruct (Q3 Ha H) as (s & -> & _). eauto. }
    destruct (Rle_dec 0 (b * b - 4 * a * k)) as [H0|H0].
    - rewrite Rabs_pos_eq in H by easy. destruct (Q1 Ha ltac:(lra)) as (s1 & s2 & -> & _). eauto.
    - rewrite Rabs_left in H by lra. destruct (Q2 Ha ltac:(lra)) as (-> & _). eauto. }
  unfold Circle2D_intersection_line, Line2D_get_x; rnum. rewrite !Rpowi_py_2.
  destruct (Rlt_bool_spec (Rabs (l_a l)) (1/1000000)) as [H|H].
  - destruct (Rlt_bool_spec (Rabs (l_b l)) (1/1000000)) as [K|K]; [eauto|].
    assert (l_b l <> 0) by (intros E; rewrite E, Rabs_R0 in K; lra).
    rewrite !Rdiv_py_ok by easy. rewrite !Rpowi_py_2.
    match goal with |- context [@quadratic_f R ?i ?a ?b ?c] => change (@quadratic_f R i a b c) with (quadratic_f a b c); destruct (Q a b c ltac:(lra)) as [o ->] end.
    destruct o as [[s1 s2]|]; eauto.
  - assert (l_a l <> 0) by (intros E; rewrite E, Rabs_R0 in H; lra).
    rewrite !Rdiv_py_ok by easy. rewrite !Rpowi_py_2.
    match goal with |- context [@quadratic_f R ?i ?a ?b ?c] => change (@quadratic_f R i a b c) with (quadratic_f a b c); destruct (Q a b c) as [o ->] end.
    { pose proof (Rle_0_sqr (l_b l / l_a l)) as Z. unfold Rsqr in Z. lra. }
    destruct o as [[s1 s2]|]; [|eauto]. rewrite !Rdiv_py_ok by easy. eauto.
Qed.

(** ** C52 *)
Section C52.
  Context {T : Type} `{Num T}.
  Lemma merge_len (p q : vec T) : (List.length (merge_weakly p q) <= 2)%nat.
  Proof. unfold merge_weakly. destruct (Vector2D_equals_weakly p q); cbn; lia. Qed.
  Lemma line_sols_len (c : circle T) l sols : Circle2D_intersection_line c l = Ok sols -> (List.length sols <= 2)%nat.
  Proof.
    unfold Circle2D_intersection_line. intros E.
    repeat match type of E with
    | (if ?b then _ else _) = _ => destruct b
    | bind ?x _ = _ => destruct x; cbn [bind] in E; try discriminate E
    | (let _ := _ in _) = _ => cbv zeta in E
    | match ?x with _ => _ end = _ => destruct x; try discriminate E
    end.
    all: try (injection E as <-; first [apply merge_len | cbn; lia]).
  Qed.
  Lemma filter_sols_spec (ok : vec T -> res bool) f sols : (List.length sols <= 2)%nat -> (forall p, List.In p sols -> ok p = Ok (f p)) ->
    filter_sols ok sols = Ok (List.filter f sols).
  Proof.
    intros HL Hok. destruct sols as [|p [|q [|x sols]]]; cbn in HL; try lia; cbn; [easy| |].
    - rewrite (Hok p) by (cbn; auto). cbn. now destruct (f p).
    - rewrite (Hok q), (Hok p) by (cbn; auto). cbn. now destruct (f p), (f q).
  Qed.
  (** In every arithmetic. *)
  Theorem C52_intersection_seg : forall (c : circle T) (s : seg T) (sols : list (vec T)),
    Circle2D_intersection c (VLine (Segment2D_line s)) = Ok sols ->
    Circle2D_intersection c (VSeg s) = Ok (List.filter (Segment2D_contains s) sols).
  Proof.
    intros c s sols E. cbn [Circle2D_intersection] in *. unfold Circle2D_intersection_seg. rewrite E. cbn [bind].
    apply filter_sols_spec; [now apply line_sols_len in E|easy].
  Qed.
  Theorem C52_intersection_seg_raise : forall (c : circle T) (s : seg T) e,
    Circle2D_intersection c (VLine (Segment2D_line s)) = Raise e -> Circle2D_intersection c (VSeg s) = Raise e.
  Proof. intros c s e E. cbn [Circle2D_intersection] in *. unfold Circle2D_intersection_seg. now rewrite E. Qed.
End C52.
Definition says_yes (r : res bool) : bool := match r with Ok b => b | Raise _ => false end.
Lemma line_of_angle_R p x : Line2D_of_angle p x =
  Ok (mkLine (- sin (rad (arg_deg x))) (cos (rad (arg_deg x))) (- - sin (rad (arg_deg x)) * vx p - cos (rad (arg_deg x)) * vy p)).
Proof. unfold Line2D_of_angle. destruct (to_angle_trig x) as [d [Hd [Hc Hs]]]. rewrite Hd; cbn [bind]. now rewrite Hc, Hs. Qed.
Theorem C52_intersection_ray_R : forall (c : circle R) (r : ray R),
  exists l sols, Line2D_init [VVec (ray_origin r); VAng (ray_dir r)] [] = Ok l /\
    Circle2D_intersection c (VLine l) = Ok sols /\
    Circle2D_intersection c (VRay r) = Ok (List.filter (fun p => says_yes (Ray2D_in_right_dir_thr r p 1)) sols).
Proof.
  intros c r. cbn [Line2D_init]. rewrite line_of_angle_R. eexists.
  assert (ES : exists sols, Circle2D_intersection_line c (mkLine (- sin (rad (a_degree (ray_dir r)))) (cos (rad (a_degree (ray_dir r))))
      (- - sin (rad (a_degree (ray_dir r))) * vx (ray_origin r) - cos (rad (a_degree (ray_dir r))) * vy (ray_origin r))) = Ok sols).
  { generalize (mkLine (- sin (rad (a_degree (ray_dir r)))) (cos (rad (a_degree (ray_dir r))))
      (- - sin (rad (a_degree (ray_dir r))) * vx (ray_origin r) - cos (rad (a_degree (ray_dir r))) * vy (ray_origin r))). intros l. apply line_total_R. }
  destruct ES as [sols ES]. exists sols. split; [reflexivity|]. split; [exact ES|].
  cbn [Circle2D_intersection]. unfold Circle2D_intersection_ray, Ray2D_dir, Ray2D_origin. rewrite of_angle_R. cbn [bind].
  rewrite line_of_angle_R. cbn [bind arg_deg a_degree].
  destruct (cos_cong _ _ (nrm_cong (a_degree (ray_dir r)))) as [EC ESn]. rewrite EC, ESn.
  change (vx (Vector2D_of_vec (ray_origin r))) with (vx (ray_origin r)). change (vy (Vector2D_of_vec (ray_origin r))) with (vy (ray_origin r)).
  rewrite ES. cbn [bind]. apply filter_sols_spec; [now apply line_sols_len in ES|].
  intros p _. rewrite !in_right_dir_thr_R. reflexivity.
Qed.
Example C52_nonvacuous : let c := mkCircle (mkVec 0 0 true) 1 in let s := mkSeg (mkVec 0 0 true) (mkVec 2 0 true) in
  exists sols, Circle2D_intersection c (VLine (Segment2D_line s)) = Ok sols.
Proof. apply line_total_R. Qed.

(** ** C53 *)
Definition radical (c o : circle R) : line R :=
  mkLine (-2 * (vx (c_center o) - vx (c_center c))) (-2 * (vy (c_center o) - vy (c_center c)))
         (norm2 (pt (c_center o)) - c_radius o * c_radius o - norm2 (pt (c_center c)) + c_radius c * c_radius c).
(** On the first circle, the radical line is exactly the second circle. *)
Lemma radical_spec c o p : 0 <= c_radius c -> 0 <= c_radius o -> on_circle c p -> (on_circle o p <-> lpts (radical c o) p).
Proof.
  intros H1 H2 Hc. apply on_circle_iff in Hc; [|easy]. rewrite on_circle_iff by easy.
  unfold lpts, on_line, radical, norm2, pt; cbn [l_a l_b l_c px py fst snd].
  unfold px, py in *; cbn [fst snd] in *. split; intros; lra.
Qed.
Lemma circle_circle_R c o : 
  (edist (pt (c_center c)) (pt (c_center o)) < Rabs (c_radius c - c_radius o) \/
   c_radius c + c_radius o < edist (pt (c_center c)) (pt (c_center o)) -> Circle2D_intersection_circle c o = Ok []) /\
  (Rabs (c_radius c - c_radius o) <= edist (pt (c_center c)) (pt (c_center o)) <= c_radius c + c_radius o ->
   Circle2D_intersection_circle c o = Circle2D_intersection_line c (radical c o)).
Proof.
  unfold Circle2D_intersection_circle; rnum.
  assert (E : edist (pt (c_center c)) (pt (c_center o)) = sqrt ((vx (c_center o) - vx (c_center c)) * (vx (c_center o) - vx (c_center c)) + (vy (c_center o) - vy (c_center c)) * (vy (c_center o) - vy (c_center c)))).
  { unfold edist, norm, norm2, psub; cbn. f_equal. ring. }
  rewrite Rsqrt_py_ok by (pose proof (Rle_0_sqr (vx (c_center o) - vx (c_center c))) as Z1; pose proof (Rle_0_sqr (vy (c_center o) - vy (c_center c))) as Z2; unfold Rsqr in *; lra).
  rewrite E. split; intros H.
  - destruct H as [H|H]; rcasesp; easy.
  - rewrite !Rlt_bool_false by lra. cbn [orb]. unfold Vector2D_r2; rnum. reflexivity.
Qed.
Theorem C53_intersection_circle_R : forall c o : circle R, 0 <= c_radius c -> 0 <= c_radius o ->
  let res := Circle2D_intersection c (VCirc o) in
  let d := edist (pt (c_center c)) (pt (c_center o)) in
  let dx := vx (c_center o) - vx (c_center c) in let dy := vy (c_center o) - vy (c_center c) in
  let l := radical c o in
  let D := disc_scale l * (c_radius c * c_radius c - line_dist2 c l) in
  (** separated or nested circles *)
  (d < Rabs (c_radius c - c_radius o) \/ c_radius c + c_radius o < d ->
     res = Ok [] /\ forall x, ~ (on_circle c x /\ on_circle o x)) /\
  (** (nearly) the same center *)
  (Rabs dx < 1/2000000 -> Rabs dy < 1/2000000 -> res = Ok []) /\
  (** otherwise, when the x coordinates of the centers agree exactly or differ by at least 5e-7 *)
  (Rabs (c_radius c - c_radius o) <= d <= c_radius c + c_radius o ->
   (dx = 0 /\ 1/2000000 <= Rabs dy) \/ 1/2000000 <= Rabs dx ->
     0 <= D /\
     (D >= 1/1000000 -> exists p q : vec R, pt p <> pt q /\
        (forall x, on_circle c x /\ on_circle o x <-> x = pt p \/ x = pt q) /\
        (tiny (vx p - vx q) (vy p - vy q) -> res = Ok [p]) /\
        (~ tiny (vx p - vx q) (vy p - vy q) -> res = Ok [p; q])) /\
     (D < 1/1000000 -> exists p, res = Ok [p] /\ lpts l (pt p) /\
        forall x, on_circle c x /\ on_circle o x -> edist (pt (c_center c)) (pt p) <= edist (pt (c_center c)) x)).
Proof.
  intros c o Hc Ho res d dx dy l D. cbn [Circle2D_intersection] in res.
  destruct (circle_circle_R c o) as [R1 R2]. fold d res in R1, R2. fold l in R2.
  assert (TRI : forall x, on_circle c x /\ on_circle o x -> Rabs (c_radius c - c_radius o) <= d <= c_radius c + c_radius o).
  { intros x [X1 X2]. unfold on_circle in X1, X2. rewrite <- X1, <- X2. unfold d.
    pose proof (edist_triangle (pt (c_center c)) x (pt (c_center o))). pose proof (edist_triangle (pt (c_center c)) (pt (c_center o)) x).
    pose proof (edist_triangle (pt (c_center o)) (pt (c_center c)) x). rewrite (edist_sym x (pt (c_center o))) in *.
    rewrite (edist_sym (pt (c_center o)) (pt (c_center c))) in *. split; [|lra].
    apply Rabs_le. lra. }
  split; [|split].
  - intros H. split; [now apply R1|]. intros x Hx. apply TRI in Hx. lra.
  - intros Hx Hy. destruct (Rle_dec (Rabs (c_radius c - c_radius o)) d) as [H1|H1]; [|apply R1; lra].
    destruct (Rle_dec d (c_radius c + c_radius o)) as [H2|H2]; [|apply R1; lra].
    rewrite R2 by easy. destruct (C51_intersection_line_R c l Hc) as (T & _). apply T.
    unfold l, radical; cbn. unfold dx, dy in *. split; rewrite Rabs_mult, (Rabs_left (-2)) by lra; lra.
  - intros Hd Hs.
    assert (SL : seen_line l = l /\ ~ tiny (l_a l) (l_b l)).
    { unfold seen_line, l, radical, tiny; cbn. fold dx dy. rewrite !Rabs_mult, !(Rabs_left (-2)) by lra.
      destruct Hs as [[Hs Hs']|Hs].
      - rewrite Hs, Rmult_0_r. split; [now destruct (Rlt_dec _ _)|]. lra.
      - destruct (Rlt_dec _ _); [exfalso; lra|]. split; [easy|]. lra. }
    destruct SL as [SL NT].
    destruct (C51_intersection_line_R c l Hc) as (_ & C5). specialize (C5 NT). rewrite SL in C5. fold D in C5. cbn [Circle2D_intersection] in C5.
    rewrite <- R2 in C5 by easy. destruct C5 as (C1 & _ & C3).
    assert (EQ : forall x, lpts l x /\ on_circle c x <-> on_circle c x /\ on_circle o x).
    { intros x. split; intros [X1 X2]; split; try easy; apply (radical_spec c o x Hc Ho); easy. }
    assert (D0 : 0 <= D).
    { unfold D. apply Rmult_le_pos; [left; now apply scale_pos|].
      unfold line_dist2. unfold l, radical; cbn [l_a l_b l_c]. fold dx dy.
      assert (Ed : d * d = dx * dx + dy * dy).
      { unfold d, edist. rewrite norm_sq. unfold norm2, psub, dx, dy; cbn. ring. }
      assert (Ek : -2 * dx * vx (c_center c) + -2 * dy * vy (c_center c) + (norm2 (pt (c_center o)) - c_radius o * c_radius o - norm2 (pt (c_center c)) + c_radius c * c_radius c) = d * d - c_radius o * c_radius o + c_radius c * c_radius c).
      { rewrite Ed. unfold norm2, dx, dy; cbn. ring. }
      rewrite Ek. replace (-2 * dx * (-2 * dx) + -2 * dy * (-2 * dy)) with (4 * (d * d)) by (rewrite Ed; ring).
      assert (Hd0 : 0 < d * d).
      { rewrite Ed. destruct Hs as [[_ Hs']|Hs'].
        - assert (dy <> 0) by (intros Z; rewrite Z, Rabs_R0 in Hs'; lra). pose proof (Rlt_0_sqr dy H) as Z. pose proof (Rle_0_sqr dx) as Z'. unfold Rsqr in *; lra.
        - assert (dx <> 0) by (intros Z; rewrite Z, Rabs_R0 in Hs'; lra). pose proof (Rlt_0_sqr dx H) as Z. pose proof (Rle_0_sqr dy) as Z'. unfold Rsqr in *; lra. }
      set (r := c_radius c) in *. set (s := c_radius o) in *.
      replace (r * r - (d * d - s * s + r * r) * (d * d - s * s + r * r) / (4 * (d * d)))
        with (((d + r - s) * (d - r + s)) * ((r + s - d) * (r + s + d)) / (4 * (d * d))) by (field; intros Z; rewrite Z in Hd0; lra).
      assert (AB : - d <= r - s <= d) by (destruct (Rabs_def2 (r - s) (d + 1)); [lra|]; split; [pose proof (Rle_abs (- (r - s))); rewrite Rabs_Ropp in *; lra|pose proof (Rle_abs (r - s)); lra]).
      assert (0 <= d) by apply edist_nonneg.
      apply Rmult_le_pos; [|left; apply Rinv_0_lt_compat; lra].
      apply Rmult_le_pos; apply Rmult_le_pos; lra. }
    split; [easy|]. split.
    + intros HD. destruct (C1 HD) as (p & q & P1 & P2 & P3). exists p, q. split; [easy|]. split; [|easy].
      intros x. rewrite <- P2. symmetry. apply EQ.
    + intros HD. destruct C3 as (p & P1 & P2 & P3); [rewrite Rabs_pos_eq; lra|]. exists p. split; [easy|]. split; [easy|].
      intros x Hx. apply P3. now apply EQ.
Qed.
Example C53_nonvacuous : let c := mkCircle (mkVec 0 0 true) 5 in let o := mkCircle (mkVec 6 0 true) 5 in
  let l := radical c o in
  Rabs (5 - 5) <= edist (pt (c_center c)) (pt (c_center o)) <= 5 + 5 /\ 1/2000000 <= Rabs (6 - 0) /\
  disc_scale l * (c_radius c * c_radius c - line_dist2 c l) >= 1/1000000.
Proof.
  intros c o l. replace (edist (pt (c_center c)) (pt (c_center o))) with 6.
  2:{ symmetry. apply norm_eq; [lra|]. unfold norm2, psub; cbn. ring. }
  replace (5 - 5) with 0 by ring. rewrite Rabs_R0, Rabs_pos_eq by lra. split; [lra|]. split; [lra|].
  unfold disc_scale, line_dist2, l, radical, norm2; cbn. destruct (Rlt_dec _ _) as [H|H].
  - rewrite Rabs_left in H; lra.
  - field_simplify; lra.
Qed.
(** Two coincident circles: every point of the circle is common, none is returned. *)
Theorem C53_same_center_refuted : exists (c : circle R) (x : point),
  on_circle c x /\ Circle2D_intersection c (VCirc c) = Ok [].
Proof.
  exists (mkCircle (mkVec 0 0 true) 1), (1, 0). split.
  - apply on_circle_iff; cbn; [lra|]. ring.
  - apply C53_intersection_circle_R; cbn; try lra; replace (0 - 0) with 0 by ring; rewrite Rabs_R0; lra.
Qed.

(** ** C54 *)
Theorem C54_circum_circle_R : forall a b c : vec R,
  ~ tiny (vx b - vx a) (vy b - vy a) -> ~ tiny (vx c - vx b) (vy c - vy b) -> ~ tiny (vx a - vx c) (vy a - vy c) ->
  (Rabs (cross (psub (pt b) (pt a)) (psub (pt c) (pt a))) >= 1/10000000000 ->
     exists k, Circle2D_circum_circle a b c = Ok k /\ on_circle k (pt a) /\ on_circle k (pt b) /\ on_circle k (pt c)) /\
  (Rabs (cross (psub (pt b) (pt a)) (psub (pt c) (pt a))) < 1/10000000000 ->
     Circle2D_circum_circle a b c = Ok (mkCircle (mkVec 0 0 true) 0)).
Proof.
  intros a b c H1 H2 H3. destruct (C44_circumcenter_R a b c H1 H2 H3) as (v & _ & E & V1 & V2 & _).
  unfold Circle2D_circum_circle. rewrite E. cbn [bind]. split; intros H.
  - apply V1 in H. rewrite H. cbn [negb]. destruct (V2 H) as [E1 E2].
    rewrite dist_R. cbn [bind]. eexists; split; [reflexivity|]. unfold on_circle, Circle2D_init; rnum; cbn [c_center c_radius].
    rewrite Rlt_bool_false by apply edist_nonneg. change (pt (Vector2D_of_vec v)) with (pt v). auto.
  - assert (v_valid v = false) as ->. { apply not_true_iff_false. rewrite V1. lra. }
    cbn [negb]. unfold Circle2D_default, Circle2D_init, Vector2D_of_vec, V; rnum; cbn. now rewrite Rlt_bool_false by lra.
Qed.
Theorem C54_circum_circle_contains_R : forall p a b c : vec R,
  (Rabs (cross (psub (pt b) (pt a)) (psub (pt c) (pt a))) >= 1/20000000000 ->
     exists (o : point) (res : bool), edist o (pt a) = edist o (pt b) /\ edist o (pt a) = edist o (pt c) /\
       Circle2D_circum_circle_contains p a b c = Ok res /\
       (res = true <-> norm2 (psub o (pt p)) < norm2 (psub o (pt a)) - 1/1000000000000) /\
       (res = true -> edist o (pt p) < edist o (pt a))) /\
  (Rabs (cross (psub (pt b) (pt a)) (psub (pt c) (pt a))) < 1/20000000000 ->
     Circle2D_circum_circle_contains p a b c = Ok false).
Proof.
  intros p a b c. unfold Circle2D_circum_circle_contains; rnum.
  assert (E : 2 * ((vx b - vx a) * (vy c - vy b) - (vy b - vy a) * (vx c - vx b)) = 2 * area2 (pt a) (pt b) (pt c)) by (unfold area2, cross, psub; cbn; ring).
  rewrite E. fold (area2 (pt a) (pt b) (pt c)).
  rewrite Rabs_mult, (Rabs_pos_eq 2) by lra.
  split; intros H.
  - rewrite Rlt_bool_false by lra.
    assert (N : area2 (pt a) (pt b) (pt c) <> 0) by (intros Z; rewrite Z, Rabs_R0 in H; lra).
    rewrite !Rdiv_py_ok by lra. rewrite !dist2_R.
    match goal with |- context [norm2 (psub (pt (V ?x ?y)) _)] => exists (pt (V x y)); eexists end.
    split; [|split; [|split; [reflexivity|split]]].
    + revert N. unfold edist, norm, norm2, area2, cross, psub, px, py, pt, V; cbn [fst snd vx vy]. intros N. f_equal. field. lra.
    + revert N. unfold edist, norm, norm2, area2, cross, psub, px, py, pt, V; cbn [fst snd vx vy]. intros N. f_equal. field. lra.
    + rewrite Rlt_bool_iff. replace (1/1000000 * (1/1000000)) with (1/1000000000000) by field. reflexivity.
    + rewrite Rlt_bool_iff. intros K. unfold edist, norm. apply sqrt_lt_1_alt. split; [apply norm2_nonneg|]. lra.
  - now rewrite Rlt_bool_true by lra.
Qed.
Example C54_nonvacuous : Rabs (cross (psub (4,0) (0,0)) (psub (0,3) (0,0))) >= 1/10000000000.
Proof. apply C44_nonvacuous. Qed.
