(** * P_Elem: histories of elementary in-place calls (C117, C118), copies and
    constructor dispatch (C119), equality of segments and sizes (C120) *)
From Coq Require Import ZArith List Bool String Reals Lra Lia Psatz.
From Flocq Require Import Core BinarySingleNaN.
From Verif Require Import Base Types NumR NumF R_Tac Spec Abs M_Angle M_Vector M_Line M_Ray M_Triangle M_Segment M_Circle M_Sector M_Rect M_Polygon
  L_Angle L_Trig P_Angle P_Vector P_Line L_Seg P_Segment P_Ray P_Triangle P_Circle L_Float P_Rect.
Import ListNotations.
Local Open Scope R_scope.

(** ** C117: any history of in-place calls on a vector *)
(** the calls *)
Inductive vop (T : Type) :=
| VSetX (x : T) | VSetY (y : T) | VAssign (x y : T) | VSetVector (o : vec T)
| VAdd (o : vec T) | VAddXY (x y : T) | VAddX (x : T) | VAddY (y : T)
| VSub (o : vec T) | VSubXY (x y : T) | VSubX (x : T) | VSubY (y : T)
| VScale (k : T) | VIAdd (o : vec T) | VISub (o : vec T) | VIMul (k : T)
| VValidate | VInvalidate.
Arguments VSetX {T}. Arguments VSetY {T}. Arguments VAssign {T}. Arguments VSetVector {T}. Arguments VAdd {T}. Arguments VAddXY {T}.
Arguments VAddX {T}. Arguments VAddY {T}. Arguments VSub {T}. Arguments VSubXY {T}. Arguments VSubX {T}. Arguments VSubY {T}. Arguments VScale {T}.
Arguments VIAdd {T}. Arguments VISub {T}. Arguments VIMul {T}. Arguments VValidate {T}. Arguments VInvalidate {T}.
(** what a call does to one coordinate *)
Inductive act (T : Type) := Keep | Put (a : T) | Plus (a : T) | Minus (a : T) | Times (a : T).
Arguments Keep {T}. Arguments Put {T}. Arguments Plus {T}. Arguments Minus {T}. Arguments Times {T}.
Section VOp.
  Context {T : Type} `{Num T}.
  Definition vop_do (v : vec T) (o : vop T) : vec T :=
    match o with
    | VSetX x => Vector2D_set_x v x | VSetY y => Vector2D_set_y v y | VAssign x y => Vector2D_assign v x y
    | VSetVector w => Vector2D_set_vector v w
    | VAdd w => Vector2D_add_inplace v w | VAddXY x y => Vector2D_add_xy v x y | VAddX x => Vector2D_add_x v x | VAddY y => Vector2D_add_y v y
    | VSub w => Vector2D_sub_inplace v w | VSubXY x y => Vector2D_sub_xy v x y | VSubX x => Vector2D_sub_x v x | VSubY y => Vector2D_sub_y v y
    | VScale k => Vector2D_scale v k | VIAdd w => Vector2D_iadd v w | VISub w => Vector2D_isub v w | VIMul k => Vector2D_imul v k
    | VValidate => Vector2D_validate v | VInvalidate => Vector2D_invalidate v
    end.
  Definition act_do (c : T) (a : act T) : T :=
    match a with Keep => c | Put a => a | Plus a => nadd c a | Minus a => nsub c a | Times a => nmul c a end.
End VOp.
(** the effect of each call on x, on y and on the validity flag *)
Definition on_x {T} (o : vop T) : act T :=
  match o with
  | VSetX x => Put x | VAssign x _ => Put x | VSetVector w => Put (vx w)
  | VAdd w | VIAdd w => Plus (vx w) | VAddXY x _ | VAddX x => Plus x
  | VSub w | VISub w => Minus (vx w) | VSubXY x _ | VSubX x => Minus x
  | VScale k | VIMul k => Times k
  | VSetY _ | VAddY _ | VSubY _ | VValidate | VInvalidate => Keep
  end.
Definition on_y {T} (o : vop T) : act T :=
  match o with
  | VSetY y => Put y | VAssign _ y => Put y | VSetVector w => Put (vy w)
  | VAdd w | VIAdd w => Plus (vy w) | VAddXY _ y | VAddY y => Plus y
  | VSub w | VISub w => Minus (vy w) | VSubXY _ y | VSubY y => Minus y
  | VScale k | VIMul k => Times k
  | VSetX _ | VAddX _ | VSubX _ | VValidate | VInvalidate => Keep
  end.
Definition on_flag {T} (f : bool) (o : vop T) : bool :=
  match o with VValidate => true | VInvalidate => false | VSetVector w => v_valid w | _ => f end.
(** In any arithmetic, after any history, each coordinate is what the
    one-dimensional history of that coordinate produces, and the flag is decided
    by validate, invalidate and set_vector alone. *)
Theorem C117_history : forall (T : Type) (H : Num T) (ops : list (vop T)) (v : vec T),
  let w := fold_left vop_do ops v in
  vx w = fold_left act_do (map on_x ops) (vx v) /\ vy w = fold_left act_do (map on_y ops) (vy v) /\
  Vector2D_is_valid w = fold_left on_flag ops (Vector2D_is_valid v).
Proof.
  intros T H ops. induction ops as [|o ops IH]; intros v; [easy|]. cbn [fold_left map]. destruct (IH (vop_do v o)) as (A & B & C). cbv zeta. rewrite A, B, C. destruct o; repeat split; reflexivity.
Qed.
(** A history of additions and subtractions, in whatever form, moves the point by the sum of the
    displacements; a history of scalings multiplies both coordinates by the product. *)
Definition displacement (o : vop R) : option point :=
  match o with
  | VAdd w | VIAdd w => Some (vx w, vy w) | VAddXY x y => Some (x, y) | VAddX x => Some (x, 0) | VAddY y => Some (0, y)
  | VSub w | VISub w => Some (- vx w, - vy w) | VSubXY x y => Some (- x, - y) | VSubX x => Some (- x, 0) | VSubY y => Some (0, - y)
  | VValidate | VInvalidate => Some (0, 0) | _ => None
  end.
Definition factor (o : vop R) : option R := match o with VScale k | VIMul k => Some k | VValidate | VInvalidate => Some 1 | _ => None end.
Theorem C117_moves_R : forall (ops : list (vop R)) (v : vec R),
  (forall ds, map displacement ops = map Some ds ->
     pt (fold_left vop_do ops v) = (vx v + fold_right Rplus 0 (map fst ds), vy v + fold_right Rplus 0 (map snd ds))) /\
  (forall ks, map factor ops = map Some ks ->
     pt (fold_left vop_do ops v) = (vx v * fold_right Rmult 1 ks, vy v * fold_right Rmult 1 ks)).
Proof.
  induction ops as [|o ops IH]; intros v; split.
  - intros [|d ds] E; [|discriminate]. cbn. unfold pt. f_equal; ring.
  - intros [|d ds] E; [|discriminate]. cbn. unfold pt. f_equal; ring.
  - intros [|d ds] E; [discriminate|]. cbn [map] in E. injection E as E1 E2. cbn [fold_left map fold_right]. destruct (IH (vop_do v o)) as [A _]. rewrite (A ds E2).
    destruct o; cbn in E1; try discriminate; injection E1 as <-; cbn; f_equal; ring.
  - intros [|k ks] E; [discriminate|]. cbn [map] in E. injection E as E1 E2. cbn [fold_left fold_right]. destruct (IH (vop_do v o)) as [_ A]. rewrite (A ks E2).
    destruct o; cbn in E1; try discriminate; injection E1 as <-; cbn; f_equal; ring.
Qed.
Example C117_nonvacuous : let ops := [VAddX 1; VSub (mkVec 2 5 true); VInvalidate; VAddXY 3 4; VSubY 7] in
  map displacement ops = map Some [(1, 0); (-2, -5); (0, 0); (3, 4); (0, -7)] /\ map factor [VScale 3; VValidate; VIMul 2] = map Some [3; 1; 2].
Proof. split; reflexivity. Qed.
(** abs and its coordinates; the length is kept; equals; explicit in-place division *)
Theorem C117_abs_R : forall v : vec R,
  pt (Vector2D_abs v) = (Rabs (vx v), Rabs (vy v)) /\ Vector2D_abs_x v = Rabs (vx v) /\ Vector2D_abs_y v = Rabs (vy v) /\
  norm (pt (Vector2D_abs v)) = norm (pt v) /\ Vector2D_abs (Vector2D_abs v) = Vector2D_abs v.
Proof.
  intros v. unfold Vector2D_abs, Vector2D_abs_x, Vector2D_abs_y; rnum. unfold V, pt, norm, norm2, px, py; cbn. rewrite !Rabs_Rabsolu.
  assert (E : forall x, Rabs x * Rabs x = x * x) by (intros x; exact (eq_sym (Rsqr_abs x))). rewrite !E. repeat split.
Qed.
Theorem C117_equals_R : forall v w : vec R, (Vector2D_equals v w = true <-> pt v = pt w) /\ Vector2D_equals v w = Vector2D_eq v w.
Proof. intros v w. split; [exact (proj1 (C17_eq_ignores_flag_R v w))|reflexivity]. Qed.
Theorem C117_idiv_R : forall (v : vec R) (k : R),
  (k <> 0 -> exists w, Vector2D_idiv v k = Ok w /\ pt w = (vx v / k, vy v / k) /\ v_valid w = v_valid v) /\
  Vector2D_idiv v 0 = Raise ZeroDivisionError.
Proof.
  intros v k. unfold Vector2D_idiv; rnum. split.
  - intros Hk. unfold Rdiv_py. rewrite !Req_bool_false by easy. cbn. eexists. repeat split.
  - unfold Rdiv_py. rewrite Req_bool_true by easy. reflexivity.
Qed.

(** ** C118: any history of a rectangle, by its sides *)
Record box := mkBox { bl : R; br : R; bt : R; bb : R }.
Definition at_x (s : box) (l r : R) : box := mkBox l r (bt s) (bb s).
Definition at_y (s : box) (t b : R) : box := mkBox (bl s) (br s) t b.
Definition sized (x y l w : R) : box := mkBox x (x + Rabs l) y (y + Rabs w).
Definition box_of (r : rect R) : box := mkBox (Rect2D_left r) (Rect2D_right r) (Rect2D_top r) (Rect2D_bottom r).
(** the common part of the two boxes, except that it keeps the distance of the two inner sides when they do not overlap *)
Definition meet (s o : box) : box :=
  let l := Rmax (bl s) (bl o) in let t := Rmax (bt s) (bt o) in sized l t (Rmin (br s) (br o) - l) (Rmin (bb s) (bb o) - t).
Definition empty_box (o : box) : Prop := ~ (bl o < br o /\ bt o < bb o).
Definition corners_box (p q : point) : box :=
  if Rlt_dec (py q) (py p) then mkBox (Rmin (px p) (px q)) (Rmin (px p) (px q)) (py q) (py q) else mkBox 0 0 0 0.
Inductive box_step : box -> rect_op R -> box -> Prop :=
| BAssign4 s x y l w : box_step s (ROAssign4 _ x y l w) (sized x y x w)
| BAssign3 s p l w : box_step s (ROAssign3 _ p l w) (sized (vx p) (vy p) l w)
| BCorners s p q : box_step s (ROAssignCorners _ p q) (corners_box (pt p) (pt q))
| BVecSize s p z : box_step s (ROAssignVecSize _ p z) (mkBox (vx p) (vx p + sz_length z) (vy p) (vy p + sz_width z))
| BRect s o : box_step s (ROAssignRect _ o) (sized (bl (box_of o)) (bt (box_of o)) (br (box_of o) - bl (box_of o)) (bb (box_of o) - bt (box_of o)))
| BMoveCenter s p : box_step s (ROMoveCenter _ p)
    (mkBox (vx p - (br s - bl s) / 2) (vx p + (br s - bl s) / 2) (vy p - (bb s - bt s) / 2) (vy p + (bb s - bt s) / 2))
| BMoveTopLeft s p : box_step s (ROMoveTopLeft _ p) (mkBox (vx p) (vx p + (br s - bl s)) (vy p) (vy p + (bb s - bt s)))
| BMoveBottomRight s p : box_step s (ROMoveBottomRight _ p) (mkBox (vx p - (br s - bl s)) (vx p) (vy p - (bb s - bt s)) (vy p))
| BMoveLeft s x : box_step s (ROMoveLeft _ x) (at_x s x (x + (br s - bl s)))
| BMoveRight s x : box_step s (ROMoveRight _ x) (at_x s (x - (br s - bl s)) x)
| BMoveTop s x : box_step s (ROMoveTop _ x) (at_y s x (x + (bb s - bt s)))
| BMoveBottom s x : box_step s (ROMoveBottom _ x) (at_y s (x - (bb s - bt s)) x)
| BSetTopLeft s x y : let l := Rmin (br s) x in box_step s (ROSetTopLeft _ x y) (mkBox l (l + Rabs l) (Rmin (bb s) y) (Rmax (bb s) y))
| BSetBottomRight s x y : let l := Rmin (bl s) x in box_step s (ROSetBottomRight _ x y) (mkBox l (l + Rabs l) (Rmin (bt s) y) (Rmax (bt s) y))
| BSetLeft s x : box_step s (ROSetLeft _ x) (at_x s (Rmin (br s) x) (Rmax (br s) x))
| BSetRight s x : box_step s (ROSetRight _ x) (at_x s (Rmin (bl s) x) (Rmax (bl s) x))
| BSetTop s x : box_step s (ROSetTop _ x) (at_y s (Rmin (bb s) x) (Rmax (bb s) x))
| BSetBottom s x : box_step s (ROSetBottom _ x) (at_y s (Rmin (bt s) x) (Rmax (bt s) x))
| BSetLength s x : box_step s (ROSetLength _ x) (at_x s (bl s) (bl s + Rabs x))
| BSetWidth s x : box_step s (ROSetWidth _ x) (at_y s (bt s) (bt s + Rabs x))
| BSetSize s l w : box_step s (ROSetSize _ l w) (sized (bl s) (bt s) l w)
| BSetSizeOf s z : box_step s (ROSetSizeOf _ z) (sized (bl s) (bt s) (sz_length z) (sz_width z))
| BIsValid s : box_step s (ROIsValid _) s
| BIntersected s o : ~ empty_box (box_of o) -> box_step s (ROIntersected _ o) (meet s (box_of o))
| BIntersectedEmpty s o : empty_box (box_of o) -> box_step s (ROIntersected _ o) (meet (mkBox 0 0 0 0) (box_of o))
| BUnited s o : ~ empty_box (box_of o) -> box_step s (ROUnited _ o) (meet (mkBox (bl s) (bl s) (bt s) (bt s)) (box_of o))
| BUnitedEmpty s o : empty_box (box_of o) -> box_step s (ROUnited _ o) (meet (mkBox 0 0 0 0) (box_of o)).
Inductive box_ctor : rect_ctor R -> box -> Prop :=
| BCNums x y l w : box_ctor (RCNums _ x y l w) (sized x y l w)
| BCVecNums p l w : box_ctor (RCVecNums _ p l w) (sized (vx p) (vy p) l w)
| BCCorners p q : box_ctor (RCCorners _ p q) (corners_box (pt p) (pt q))
| BCVecSize p z : box_ctor (RCVecSize _ p z) (mkBox (vx p) (vx p + sz_length z) (vy p) (vy p + sz_width z))
| BCRect o : box_ctor (RCRect _ o) (sized (bl (box_of o)) (bt (box_of o)) (br (box_of o) - bl (box_of o)) (bb (box_of o) - bt (box_of o)))
| BCFromCenter x y l w : box_ctor (RCFromCenter _ x y l w) (sized (x - l / 2) (y - w / 2) l w).
Inductive box_hist : rect_ctor R -> list (rect_op R) -> box -> Prop :=
| BH0 c s : box_ctor c s -> box_hist c [] s
| BHS c ops s o s' : box_hist c ops s -> box_step s o s' -> box_hist c (ops ++ [o]) s'.

Lemma box_eq a b c d a' b' c' d' : a = a' -> b = b' -> c = c' -> d = d' -> mkBox a b c d = mkBox a' b' c' d'.
Proof. congruence. Qed.
Ltac bx := unfold box_of, sized, at_x, at_y, meet, Rect2D_right, Rect2D_bottom, Rect2D_left, Rect2D_top; cbn [bl br bt bb r_top_left r_size
   rect_make rect_step Rect2D_of_nums Rect2D_of_vec_nums Rect2D_of_vec_size Rect2D_of_rect Rect2D_from_center4 Rect2D_assign4 Rect2D_assign3 Rect2D_assign_vec_size Rect2D_assign_rect
   Rect2D_move_center Rect2D_move_top_left Rect2D_move_bottom_right Rect2D_move_left Rect2D_move_right Rect2D_move_top Rect2D_move_bottom
   Rect2D_set_length Rect2D_set_width Rect2D_set_size Rect2D_set_size_of Rect2D_is_valid_upd Rect2D_top_left Rect2D_size rect_set_all
   Vector2D_assign Vector2D_set_x Vector2D_set_y Vector2D_of_vec Size2D_init Size2D_assign Size2D_set_length Size2D_set_width V vx vy sz_length sz_width]; rnum.
Lemma box_corners p q b : (let '(v, s) := two_corner_fields p q in box_of (mkRect v s b)) = corners_box (pt p) (pt q).
Proof.
  unfold two_corner_fields, corners_box, size0, vec0. bx. cbn [pt px py fst snd]. rewrite ?Rabs_R0.
  destruct (Rlt_dec (vy q) (vy p)) as [H|H].
  - rewrite (Rlt_bool_true (vy q - vy p) 0) by lra. destruct (Rlt_bool_spec (vx q - vx p) 0); cbn; [rewrite Rmin_right by lra|rewrite Rmin_left by lra]; rewrite Rabs_R0; apply box_eq; ring.
  - rewrite (Rlt_bool_false (vy q - vy p) 0) by lra. cbn. rewrite Rabs_R0. apply box_eq; ring.
Qed.
Lemma empty_iff (o : rect R) : empty_box (box_of o) <-> Rect2D_is_valid o = false.
Proof.
  unfold empty_box, Rect2D_is_valid, Size2D_is_valid. bx. rewrite <- not_true_iff_false, andb_true_iff, !Rlt_bool_iff. split; intros H K; apply H; lra.
Qed.
Lemma tail_meet r o : box_of (intersect_tail r o) = meet (box_of r) (box_of o).
Proof.
  unfold intersect_tail. rewrite !nmin_Rmin, !nmax_Rmax. cbv zeta. unfold meet.
  set (l := Rmax _ (Rect2D_left o)). set (t := Rmax _ (Rect2D_top o)). change (bl (box_of o)) with (Rect2D_left o). change (bt (box_of o)) with (Rect2D_top o).
  change (bl (box_of r)) with (Rect2D_left r). change (bt (box_of r)) with (Rect2D_top r). fold l t.
  change (br (box_of r)) with (Rect2D_right r). change (bb (box_of r)) with (Rect2D_bottom r). change (br (box_of o)) with (Rect2D_right o). change (bb (box_of o)) with (Rect2D_bottom o).
  generalize (Rmin (Rect2D_right r) (Rect2D_right o)) (Rmin (Rect2D_bottom r) (Rect2D_bottom o)). clearbody l t. intros m n.
  destruct (_ || _); bx; reflexivity.
Qed.
Lemma box_step_ok r o : exists s', box_step (box_of r) o s' /\ box_of (rect_step r o) = s'.
Proof.
  destruct o; try (eexists; split; [constructor|bx; apply box_eq; rewrite ?Rabs_Rabsolu; try reflexivity; lra]; fail).
  - eexists. split; [constructor|]. rewrite <- (box_corners p q (r_is_valid r)). cbn [rect_step]. unfold Rect2D_assign_corners. now destruct two_corner_fields.
  - eexists. split; [constructor|]. bx. replace (vx (r_top_left o) + sz_length (r_size o) - vx (r_top_left o)) with (sz_length (r_size o)) by ring.
    replace (vy (r_top_left o) + sz_width (r_size o) - vy (r_top_left o)) with (sz_width (r_size o)) by ring. reflexivity.
  - destruct (C59_set_corner_R r x y) as [(A & B & C & D) _]. eexists. split; [constructor|]. unfold box_of at 1. cbn [rect_step]. rewrite B, A, C, D. reflexivity.
  - destruct (C59_set_corner_R r x y) as [_ (A & B & C & D)]. eexists. split; [constructor|]. unfold box_of at 1. cbn [rect_step]. rewrite B, A, C, D. reflexivity.
  - destruct (C58_set_side_R r x) as ((A & B & C & D) & _). eexists. split; [constructor|]. unfold box_of at 1. cbn [rect_step]. rewrite A, B, C, D. reflexivity.
  - destruct (C58_set_side_R r x) as (_ & (A & B & C & D) & _). eexists. split; [constructor|]. unfold box_of at 1. cbn [rect_step]. rewrite A, B, C, D. reflexivity.
  - destruct (C58_set_side_R r x) as (_ & _ & (A & B & C & D) & _). eexists. split; [constructor|]. unfold box_of at 1. cbn [rect_step]. rewrite A, B, C, D. reflexivity.
  - destruct (C58_set_side_R r x) as (_ & _ & _ & (A & B & C & D)). eexists. split; [constructor|]. unfold box_of at 1. cbn [rect_step]. rewrite A, B, C, D. reflexivity.
  - cbn [rect_step]. unfold Rect2D_intersected. destruct (Rect2D_is_valid o) eqn:E; cbn [negb].
    + eexists. split; [apply BIntersected; rewrite empty_iff, E; discriminate|apply tail_meet].
    + eexists. split; [apply BIntersectedEmpty; now rewrite empty_iff|]. rewrite tail_meet. f_equal. bx. rewrite Rabs_R0. apply box_eq; ring.
  - cbn [rect_step]. unfold Rect2D_united. destruct (Rect2D_is_valid o) eqn:E; cbn [negb].
    + eexists. split; [apply BUnited; rewrite empty_iff, E; discriminate|]. rewrite tail_meet. f_equal. bx. rewrite Rabs_R0. apply box_eq; ring.
    + eexists. split; [apply BUnitedEmpty; now rewrite empty_iff|]. rewrite tail_meet. f_equal. bx. rewrite Rabs_R0. apply box_eq; ring.
Qed.
Lemma box_ctor_ok c : box_ctor c (box_of (rect_make c)).
Proof.
  destruct c; cbn [rect_make].
  - constructor.
  - constructor.
  - unfold Rect2D_of_corners. pose proof (box_corners p q true) as E. destruct two_corner_fields. rewrite E. constructor.
  - constructor.
  - assert (E : box_of (Rect2D_of_rect r) = sized (bl (box_of r)) (bt (box_of r)) (br (box_of r) - bl (box_of r)) (bb (box_of r) - bt (box_of r))); [|rewrite E; constructor].
    bx. replace (vx (r_top_left r) + sz_length (r_size r) - vx (r_top_left r)) with (sz_length (r_size r)) by ring.
    replace (vy (r_top_left r) + sz_width (r_size r) - vy (r_top_left r)) with (sz_width (r_size r)) by ring. reflexivity.
  - assert (E : box_of (Rect2D_from_center4 x y l w) = sized (x - l / 2) (y - w / 2) l w); [|rewrite E; constructor]. bx. apply box_eq; lra.
Qed.
Lemma box_fun s o s1 s2 : box_step s o s1 -> box_step s o s2 -> s1 = s2.
Proof. intros H1 H2. destruct H1; inversion H2; subst; try reflexivity; contradiction. Qed.
Lemma box_ctor_fun c s1 s2 : box_ctor c s1 -> box_ctor c s2 -> s1 = s2.
Proof. intros H1 H2. destruct H1; inversion H2; subst; reflexivity. Qed.
(** Whatever the constructor and the history, the sides of the rectangle are
    the ones the history of boxes gives, and that history is unique. *)
Theorem C118_rect_history_R : forall (c : rect_ctor R) (ops : list (rect_op R)) (s : box),
  box_hist c ops s <-> s = box_of (rect_run c ops).
Proof.
  intros c ops. induction ops as [|o ops IH] using rev_ind; intros s.
  - split.
    + intros Hs. inversion Hs as [c' s' Hc|]; [|now destruct ops]. subst. unfold rect_run. cbn [fold_left]. pose proof (box_ctor_ok c) as K. eapply box_ctor_fun; eassumption.
    + intros ->. constructor. apply box_ctor_ok.
  - unfold rect_run. rewrite fold_left_app. cbn [fold_left]. change (fold_left rect_step ops (rect_make c)) with (rect_run c ops).
    destruct (box_step_ok (rect_run c ops) o) as (s' & S1 & S2). split.
    + intros Hs. inversion Hs as [|c' ops' s0 o' s0' H1 H2 E0 E]; [now destruct ops|]. apply app_inj_tail in E. destruct E as [-> ->]. apply IH in H1. rewrite H1 in H2. rewrite S2. eapply box_fun; eassumption.
    + intros ->. rewrite S2. eapply BHS; [now apply IH|exact S1].
Qed.
Example C118_nonvacuous : box_hist (RCNums _ 1 2 (-3) 4) [ROMoveRight _ 10; ROSetLength _ 5; ROSetSizeOf _ (mkSize 1 1)]
  (sized (10 - (1 + Rabs (-3) - 1)) 2 1 1).
Proof.
  apply (BHS _ [ROMoveRight _ 10; ROSetLength _ 5] _ _ _ (BHS _ [ROMoveRight _ 10] _ _ _ (BHS _ [] _ _ _ (BH0 _ _ (BCNums 1 2 (-3) 4)) (BMoveRight _ 10)) (BSetLength _ 5)) (BSetSizeOf _ (mkSize 1 1))).
Qed.

(** ** C119: copies and constructor dispatch *)
Theorem C119_copies_R : forall (a : angle R) (l : line R) (r : ray R) (c : circle R) (p : vec R) (x : R),
  (exists b, AngleDeg_copy a = Ok b /\ -180 <= a_degree b <= 180 /\ cong360 (a_degree b) (a_degree a) /\
     (-180 <= a_degree a <= 180 -> b = a)) /\
  Line2D_copy l = l /\
  (exists q, Ray2D_copy r = Ok q /\ pt (ray_origin q) = pt (ray_origin r) /\ cong360 (a_degree (ray_dir q)) (a_degree (ray_dir r)) /\
     (-180 <= a_degree (ray_dir r) <= 180 -> ray_dir q = ray_dir r)) /\
  pt (Circle2D_center c) = pt (c_center c) /\
  pt (c_center (Circle2D_assign c p x)) = pt p /\ c_radius (Circle2D_assign c p x) = Rmax 0 x.
Proof.
  intros a l r c p x. split; [|split; [|split; [|split; [|split]]]].
  - exists (mkAngle (nrm (a_degree a))). unfold AngleDeg_copy. rewrite of_num_R. split; [reflexivity|]. cbn. split; [apply nrm_range|]. split; [apply nrm_cong|].
    intros H. rewrite nrm_id by exact H. now destruct a.
  - now destruct l.
  - exists (mkRay (Vector2D_of_vec (Ray2D_origin r)) (mkAngle (nrm (a_degree (ray_dir r))))). unfold Ray2D_copy, Ray2D_dir. rewrite of_angle_R. cbn [bind].
    unfold Ray2D_of_angle, AngleDeg_of_arg. rewrite of_angle_R. cbn [bind a_degree]. rewrite nrm_nrm. split; [reflexivity|]. split; [reflexivity|]. cbn [ray_dir a_degree]. split; [apply nrm_cong|].
    intros H. rewrite nrm_id by exact H. now destruct (ray_dir r).
  - reflexivity.
  - reflexivity.
  - exact (C49_radius_R p x).
Qed.
Example C119_copies_nonvacuous : -180 <= a_degree (mkAngle (T := R) 90) <= 180. Proof. cbn; lra. Qed.

(** The points a list of arguments contributes: its vectors, in order. *)
Inductive points_of {T} : list (val T) -> list (T * T) -> Prop :=
| PO0 : points_of [] []
| POV v l ps : points_of l ps -> points_of (VVec v :: l) ((vx v, vy v) :: ps)
| POX x l ps : (forall v, x <> VVec v) -> points_of l ps -> points_of (x :: l) ps.
Theorem C119_polygon : forall (T : Type) (H : Num T) (args l : list (val T)) (vs pts : list (vec T)) (p : vec T),
  Polygon2D_init [] = Ok [V (num 0) (num 0)] /\
  Polygon2D_init (VList (map VVec vs) :: args) = Ok vs /\
  (args <> [] -> (forall l', hd_error args <> Some (VList l')) ->
     exists ws, Polygon2D_init args = Ok ws /\ points_of args (map (fun w => (vx w, vy w)) ws) /\ Forall (fun w => v_valid w = true) ws) /\
  Polygon2D_clear vs = [V (num 0) (num 0)] /\
  (pts <> [] -> Polygon2D_assign vs pts = pts) /\ Polygon2D_assign vs [] = vs /\
  (List.length (Polygon2D_add_vertex vs p) = S (List.length vs) /\ nth_error (Polygon2D_add_vertex vs p) (List.length vs) = Some p /\
   forall i, (i < List.length vs)%nat -> nth_error (Polygon2D_add_vertex vs p) i = nth_error vs i).
Proof.
  intros T H args l vs pts p.
  assert (RW : forall vs : list (vec T), vecs_raw (map VVec vs) = Some vs) by (intros us; induction us as [|v us IH]; [reflexivity|]; cbn; now rewrite IH).
  assert (VO : forall args : list (val T), points_of args (map (fun w => (vx w, vy w)) (vecs_of args)) /\ Forall (fun w => v_valid w = true) (vecs_of args)).
  { intros us. induction us as [|u us [I1 I2]]; [split; constructor|]. destruct u; cbn; try (split; [apply POX; [discriminate|exact I1]|exact I2]). split; [apply (POV v); exact I1|now constructor]. }
  split; [reflexivity|]. split; [cbn; now rewrite RW|]. split.
  - intros NE NL. exists (vecs_of args). split; [|apply VO]. destruct args as [|u us]; [easy|]. destruct u; try reflexivity. now destruct (NL l0).
  - split; [reflexivity|]. split; [now destruct pts|]. split; [reflexivity|]. unfold Polygon2D_add_vertex. rewrite app_length. split; [cbn; lia|]. split.
    + rewrite nth_error_app2 by lia. now rewrite Nat.sub_diag.
    + intros i Hi. now apply nth_error_app1.
Qed.
Theorem C119_triangle : forall (T : Type) (H : Num T) (args : list (val T)) (t : triangle T),
  Triangle2D_init args = Ok t <->
  (exists a b c : vec T, (args = [VVec a; VVec b; VVec c] \/ exists s, args = [VSeg s; VVec c] /\ s_origin s = a /\ s_terminal s = b) /\
     t = mkTri (V (vx a) (vy a)) (V (vx b) (vy b)) (V (vx c) (vy c))).
Proof.
  intros T H args t. split.
  - destruct args as [|x [|y [|z [|u args]]]]; cbn; try discriminate.
    + destruct x; discriminate.
    + destruct x; try discriminate; destruct y; try discriminate. intros E; cbn in E; injection E as E; subst t. exists (s_origin s), (s_terminal s), v. split; [right; now exists s|reflexivity].
    + destruct x; try discriminate; destruct y; try discriminate; destruct z; try discriminate. intros E; cbn in E; injection E as E; subst t. exists v, v0, v1. split; [now left|reflexivity].
    + destruct x; try discriminate; destruct y; try discriminate; destruct z; discriminate.
  - intros (a & b & c & [-> | (s & -> & <- & <-)] & ->); reflexivity.
Qed.

(** ** C120: equality of segments and sizes; the bisector of a segment *)
Definition near (x y : R) : Prop := Rabs (x - y) < 1 / 1000000.
Theorem C120_segments_R : forall s o : seg R,
  (Segment2D_eq s o = true <-> pt (s_origin s) = pt (s_origin o) /\ pt (s_terminal s) = pt (s_terminal o)) /\
  (Segment2D_equals_weakly s o = true <->
     near (vx (s_origin s)) (vx (s_origin o)) /\ near (vy (s_origin s)) (vy (s_origin o)) /\
     near (vx (s_terminal s)) (vx (s_terminal o)) /\ near (vy (s_terminal s)) (vy (s_terminal o))) /\
  (~ tiny (vx (s_terminal s) - vx (s_origin s)) (vy (s_terminal s) - vy (s_origin s)) ->
     forall r, lpts (Segment2D_perpendicular_bisector s) r <-> edist r (pt (s_origin s)) = edist r (pt (s_terminal s))).
Proof.
  intros s o. split; [|split].
  - unfold Segment2D_eq. rewrite andb_true_iff, !(proj1 (C17_eq_ignores_flag_R _ _)). reflexivity.
  - unfold Segment2D_equals_weakly, Vector2D_equals_weakly; rnum. rewrite !andb_true_iff, !Rlt_bool_iff. unfold near. tauto.
  - apply C24_perpendicular_bisector_R.
Qed.
Theorem C120_sizes_R : forall s o : size R,
  Size2D_eq s o = true <-> near (sz_length s) (sz_length o) /\ near (sz_width s) (sz_width o).
Proof. intros s o. unfold Size2D_eq; rnum. rewrite andb_true_iff, !Rlt_bool_iff. unfold near. tauto. Qed.
Example C120_nonvacuous : ~ tiny (vx (mkVec 3 1 true) - vx (mkVec 0 0 true)) (vy (mkVec 3 1 true) - vy (mkVec 0 0 true)) /\ near 1 (1 + 1 / 10000000).
Proof.
  split; [|unfold near; unfold Rabs; destruct Rcase_abs; lra]. cbn. unfold tiny. rewrite !Rabs_pos_eq by lra. lra.
Qed.
