(** * P_Rect: properties C55-C64 of Size2D and Rect2D *)
From Coq Require Import ZArith List Bool String Reals Lra Lia Psatz.
From Flocq Require Import Core BinarySingleNaN.
From Verif Require Import Base Types NumR NumF R_Tac Spec Abs M_Angle M_Vector M_Line M_Ray M_Triangle M_Segment M_Circle M_Sector M_Rect
  L_Angle L_Trig P_Angle P_Vector P_Line L_Seg P_Segment P_Ray L_Float P_Triangle P_Circle.
Import ListNotations.
Local Open Scope R_scope.

(** ** C55 *)
(** Every way the API offers to build or change a rectangle.  [other] and the
    sizes are arbitrary objects; a size object is only assumed to be one that
    Size2D itself can produce (see [size_hist]). *)
Inductive rect_ctor (T : Type) :=
| RCNums (x y l w : T) | RCVecNums (p : vec T) (l w : T) | RCCorners (p q : vec T)
| RCVecSize (p : vec T) (s : size T) | RCRect (r : rect T) | RCFromCenter (x y l w : T).
Inductive rect_op (T : Type) :=
| ROAssign4 (x y l w : T) | ROAssign3 (p : vec T) (l w : T) | ROAssignCorners (p q : vec T)
| ROAssignVecSize (p : vec T) (s : size T) | ROAssignRect (o : rect T)
| ROMoveCenter (p : vec T) | ROMoveTopLeft (p : vec T) | ROMoveBottomRight (p : vec T)
| ROMoveLeft (x : T) | ROMoveRight (x : T) | ROMoveTop (x : T) | ROMoveBottom (x : T)
| ROSetTopLeft (x y : T) | ROSetBottomRight (x y : T)
| ROSetLeft (x : T) | ROSetRight (x : T) | ROSetTop (x : T) | ROSetBottom (x : T)
| ROSetLength (x : T) | ROSetWidth (x : T) | ROSetSize (l w : T) | ROSetSizeOf (s : size T)
| ROIsValid | ROIntersected (o : rect T) | ROUnited (o : rect T).
Inductive size_op (T : Type) := SOAssign (l w : T) | SOSetLength (l : T) | SOSetWidth (w : T).
Arguments SOAssign {T}. Arguments SOSetLength {T}. Arguments SOSetWidth {T}.

Section Hist.
  Context {T : Type} `{Num T}.
  Definition size_step (s : size T) (o : size_op T) : size T :=
    match o with
    | SOAssign l w => Size2D_assign s l w
    | SOSetLength l => Size2D_set_length s l
    | SOSetWidth w => Size2D_set_width s w
    end.
  Definition size_run (l w : T) (ops : list (size_op T)) : size T := fold_left size_step ops (Size2D_init l w).
  (** sizes the API can produce *)
  Definition size_hist (s : size T) : Prop := exists l w ops, s = size_run l w ops.

  Definition rect_make (c : rect_ctor T) : rect T :=
    match c with
    | RCNums _ x y l w => Rect2D_of_nums x y l w
    | RCVecNums _ p l w => Rect2D_of_vec_nums p l w
    | RCCorners _ p q => Rect2D_of_corners p q
    | RCVecSize _ p s => Rect2D_of_vec_size p s
    | RCRect _ r => Rect2D_of_rect r
    | RCFromCenter _ x y l w => Rect2D_from_center4 x y l w
    end.
  Definition rect_step (r : rect T) (o : rect_op T) : rect T :=
    match o with
    | ROAssign4 _ x y l w => Rect2D_assign4 r x y l w
    | ROAssign3 _ p l w => Rect2D_assign3 r p l w
    | ROAssignCorners _ p q => Rect2D_assign_corners r p q
    | ROAssignVecSize _ p s => Rect2D_assign_vec_size r p s
    | ROAssignRect _ o => Rect2D_assign_rect r o
    | ROMoveCenter _ p => Rect2D_move_center r p
    | ROMoveTopLeft _ p => Rect2D_move_top_left r p
    | ROMoveBottomRight _ p => Rect2D_move_bottom_right r p
    | ROMoveLeft _ x => Rect2D_move_left r x
    | ROMoveRight _ x => Rect2D_move_right r x
    | ROMoveTop _ x => Rect2D_move_top r x
    | ROMoveBottom _ x => Rect2D_move_bottom r x
    | ROSetTopLeft _ x y => Rect2D_set_top_left r x y
    | ROSetBottomRight _ x y => Rect2D_set_bottom_right r x y
    | ROSetLeft _ x => Rect2D_set_left r x
    | ROSetRight _ x => Rect2D_set_right r x
    | ROSetTop _ x => Rect2D_set_top r x
    | ROSetBottom _ x => Rect2D_set_bottom r x
    | ROSetLength _ x => Rect2D_set_length r x
    | ROSetWidth _ x => Rect2D_set_width r x
    | ROSetSize _ l w => Rect2D_set_size r l w
    | ROSetSizeOf _ s => Rect2D_set_size_of r s
    | ROIsValid _ => Rect2D_is_valid_upd r
    | ROIntersected _ o => Rect2D_intersected r o
    | ROUnited _ o => Rect2D_united r o
    end.
  Definition ctor_sizes (c : rect_ctor T) : Prop := match c with RCVecSize _ _ s => size_hist s | _ => True end.
  Definition op_sizes (o : rect_op T) : Prop := match o with ROAssignVecSize _ _ s => size_hist s | _ => True end.
  Definition rect_run (c : rect_ctor T) (ops : list (rect_op T)) : rect T := fold_left rect_step ops (rect_make c).

  Variable P : T -> Prop.
  Hypothesis Pabs : forall x, P (nabs x).
  Definition size_inv (s : size T) : Prop := P (sz_length s) /\ P (sz_width s).
  Lemma size_hist_inv s : size_hist s -> size_inv s.
  Proof.
    intros (l & w & ops & ->). unfold size_run.
    assert (Q : size_inv (Size2D_init l w)) by (split; apply Pabs). revert Q. generalize (Size2D_init l w).
    induction ops as [|o ops IH]; intros s Q; cbn; [easy|]. apply IH. destruct Q as [Q1 Q2]. destruct o; split; cbn; auto.
  Qed.
  Lemma rect_run_inv c ops : ctor_sizes c -> Forall op_sizes ops -> size_inv (r_size (rect_run c ops)).
  Proof.
    intros Hc Ho. unfold rect_run.
    assert (Q : size_inv (r_size (rect_make c))).
    { destruct c; cbn in *; try (split; apply Pabs).
      - unfold Rect2D_of_corners, two_corner_fields. repeat match goal with |- context [if ?b then _ else _] => destruct b end; split; apply Pabs.
      - now apply size_hist_inv. }
    revert Q. generalize (rect_make c). induction Ho as [|o ops H1 H2 IH]; intros r Q; cbn; [easy|].
    apply IH. destruct Q as [Q1 Q2].
    destruct o; cbn in *; try (split; cbn; auto; fail).
    - unfold Rect2D_assign_corners, two_corner_fields. repeat match goal with |- context [if ?b then _ else _] => destruct b end; split; apply Pabs.
    - now apply size_hist_inv.
  Qed.
End Hist.
Theorem C55_never_inverted_R : forall (c : rect_ctor R) (ops : list (rect_op R)),
  ctor_sizes c -> Forall op_sizes ops ->
  let r := rect_run c ops in
  0 <= sz_length (r_size r) /\ 0 <= sz_width (r_size r) /\
  Rect2D_left r <= Rect2D_right r /\ Rect2D_top r <= Rect2D_bottom r.
Proof.
  intros c ops H1 H2 r. destruct (@rect_run_inv R NumR (fun x : R => 0 <= x) Rabs_pos c ops H1 H2) as [Q1 Q2]. fold r in Q1, Q2.
  unfold Rect2D_right, Rect2D_bottom, Rect2D_left, Rect2D_top; rnum. repeat split; try easy; lra.
Qed.
Example C55_nonvacuous : let ops := [ROSetLeft R 7; ROAssign4 R (-1) 2 3 4; ROMoveCenter R (mkVec 0 0 true)] in
  ctor_sizes (RCVecSize R (mkVec 0 0 true) (size_run (-3) 4 [SOSetWidth (-2)])) /\ Forall op_sizes ops.
Proof. cbn. split; [now exists (-3), 4, [SOSetWidth (-2)]|]. repeat constructor. Qed.

(** In double arithmetic: no side is negative, and right/bottom never compare
    smaller than left/top (for NaN every comparison is false). *)
Lemma Babs_not_neg (x : F) : Bltb (Babs x) (B754_zero false) = false.
Proof. destruct x; try easy. Qed.
Lemma F_add_nonneg (x l : F) : Bltb l (B754_zero false) = false -> Bltb (Bplus mode_NE x l) x = false.
Proof.
  intros Hl. destruct (is_finite x) eqn:Fx.
  - destruct (is_finite l) eqn:Fl.
    + rewrite Bltb_correct in Hl by easy. cbn [B2R] in Hl.
      assert (L0 : 0 <= B2R l). { destruct (Rlt_bool_spec (B2R l) 0); [discriminate|easy]. }
      pose proof (Bplus_correct 53 1024 _ _ mode_NE x l Fx Fl) as HB.
      change (round radix2 _ _ (B2R x + B2R l)) with (rnd64 (B2R x + B2R l)) in HB.
      destruct (Rlt_bool_spec (Rabs (rnd64 (B2R x + B2R l))) (bpow radix2 1024)) as [HO|HO].
      * destruct HB as (HB & HF & _). rewrite Bltb_correct by easy. rewrite HB. apply Rlt_bool_false.
        rewrite <- (rnd_id (B2R x)) at 1; [|apply fmt_F]. apply rnd_le. lra.
      * destruct HB as [HB HS]. destruct (Bsign x) eqn:SX.
        -- (* both "negative": l is a zero, and x + 0 does not overflow *)
           exfalso. assert (B2R l = 0) as Z.
           { destruct l as [sl|sl| |sl ml el Hb]; try easy. cbn in HS. subst sl.
             exfalso. revert L0. cbn [B2R]. apply Rlt_not_le. apply F2R_lt_0. easy. }
           rewrite Z, Rplus_0_r in HO.
           rewrite rnd_id in HO by apply fmt_F. pose proof (abs_B2R_lt_emax 53 1024 x). lra.
        -- destruct (Bplus mode_NE x l) as [s|s| |s m e He]; cbn in HB; try discriminate. injection HB as ->.
           destruct x; easy.
    + destruct l as [| [] | |]; try easy; destruct x; easy.
  - destruct x as [| [] | |]; try easy; destruct l as [| [] | |]; easy.
Qed.
Theorem C55_never_inverted_F : forall (L : libm) (c : rect_ctor F) (ops : list (rect_op F)),
  @ctor_sizes F (NumF L) c -> Forall (@op_sizes F (NumF L)) ops ->
  let r := @rect_run F (NumF L) c ops in
  Bltb (sz_length (r_size r)) (B754_zero false) = false /\ Bltb (sz_width (r_size r)) (B754_zero false) = false /\
  Bltb (@Rect2D_right F (NumF L) r) (Rect2D_left r) = false /\ Bltb (@Rect2D_bottom F (NumF L) r) (Rect2D_top r) = false.
Proof.
  intros L c ops H1 H2 r.
  destruct (@rect_run_inv F (NumF L) (fun x => Bltb x (B754_zero false) = false) Babs_not_neg c ops H1 H2) as [Q1 Q2]. fold r in Q1, Q2.
  repeat split; try easy; now apply F_add_nonneg.
Qed.

(** ** C56 *)
Definition rect_ok (r : rect R) : Prop := 0 <= sz_length (r_size r) /\ 0 <= sz_width (r_size r).
(** the closed rectangle as a point set *)
Definition rpset (r : rect R) (p : point) : Prop :=
  vx (r_top_left r) <= px p <= vx (r_top_left r) + sz_length (r_size r) /\
  vy (r_top_left r) <= py p <= vy (r_top_left r) + sz_width (r_size r).
Lemma rect_contains_R r p : Rect2D_contains r p = true <-> rpset r (pt p).
Proof.
  unfold Rect2D_contains, rpset, Rect2D_left, Rect2D_right, Rect2D_top, Rect2D_bottom; rnum.
  rewrite !andb_true_iff, !Rle_bool_iff. cbn. tauto.
Qed.
Ltac runf := unfold Rect2D_top_right, Rect2D_bottom_left, Rect2D_bottom_right, Rect2D_center, Rect2D_right, Rect2D_bottom, Rect2D_left, Rect2D_top; rnum; cbn.
Theorem C56_contains_R : forall (r : rect R) (p : vec R), rect_ok r ->
  (Rect2D_contains r p = true <->
     Rect2D_left r <= vx p <= Rect2D_right r /\ Rect2D_top r <= vy p <= Rect2D_bottom r) /\
  Rect2D_left r <= Rect2D_right r /\ Rect2D_top r <= Rect2D_bottom r /\
  pt (Rect2D_top_left r) = (Rect2D_left r, Rect2D_top r) /\ pt (Rect2D_top_right r) = (Rect2D_right r, Rect2D_top r) /\
  pt (Rect2D_bottom_left r) = (Rect2D_left r, Rect2D_bottom r) /\ pt (Rect2D_bottom_right r) = (Rect2D_right r, Rect2D_bottom r) /\
  (forall q, List.In q [Rect2D_top_left r; Rect2D_top_right r; Rect2D_bottom_left r; Rect2D_bottom_right r; Rect2D_center r] ->
     Rect2D_contains r q = true) /\
  pt (Rect2D_center r) = ((Rect2D_left r + Rect2D_right r) / 2, (Rect2D_top r + Rect2D_bottom r) / 2) /\
  Rect2D_area r = (Rect2D_right r - Rect2D_left r) * (Rect2D_bottom r - Rect2D_top r) /\
  (Rect2D_is_valid r = true <-> Rect2D_area r <> 0).
Proof.
  intros r p [H1 H2]. repeat match goal with |- _ /\ _ => split end.
  - rewrite rect_contains_R. unfold rpset, px, py; runf. tauto.
  - runf; lra.
  - runf; lra.
  - reflexivity.
  - reflexivity.
  - reflexivity.
  - reflexivity.
  - intros q Hq. apply rect_contains_R. unfold rpset, px, py. cbn in Hq.
    repeat (destruct Hq as [<-|Hq]); try easy; unfold Rect2D_top_left, Rect2D_center; runf; lra.
  - unfold Rect2D_center, pt; runf. f_equal; field.
  - unfold Rect2D_area; runf. ring.
  - unfold Rect2D_is_valid, Size2D_is_valid, Rect2D_area; rnum. rewrite andb_true_iff, !Rlt_bool_iff. split.
    + intros [A B] E. apply Rmult_integral in E. lra.
    + intros E. split; [destruct H1 as [|Z]|destruct H2 as [|Z]]; try easy; exfalso; apply E; rewrite <- Z; ring.
Qed.
Example C56_nonvacuous : rect_ok (Rect2D_of_nums 1 2 (-3) 4).
Proof. split; apply Rabs_pos. Qed.
(** The diagonal of the size is the distance between opposite corners. *)
Theorem C56_diagonal_R : forall r : rect R,
  Size2D_diagonal (r_size r) = Ok (edist (pt (Rect2D_top_left r)) (pt (Rect2D_bottom_right r))) /\
  Size2D_diagonal (r_size r) = Ok (edist (pt (Rect2D_top_right r)) (pt (Rect2D_bottom_left r))).
Proof.
  intros r. unfold Size2D_diagonal. rnum. rewrite Rsqrt_py_ok by nra. unfold edist, norm, norm2, psub, pt, px, py. runf. cbn [fst snd].
  split; do 2 f_equal; ring.
Qed.
Example C56_diagonal_nonvacuous : Size2D_diagonal (r_size (Rect2D_of_nums 1 2 3 4)) = Ok 5.
Proof.
  unfold Size2D_diagonal. cbn [Rect2D_of_nums r_size Size2D_init sz_length sz_width]. rnum. rewrite Rsqrt_py_ok by nra.
  rewrite !Rabs_pos_eq by lra. f_equal. replace (3 * 3 + 4 * 4) with (5 * 5) by ring. apply sqrt_square. lra.
Qed.
(** contains_almost never works: it raises for every rectangle, point and threshold (any arithmetic). *)
Theorem C56_contains_almost_raises : forall (T : Type) (H : Num T) (r : rect T) (p : vec T) (thr : T),
  Rect2D_contains_almost r p thr = Raise TypeError.
Proof. reflexivity. Qed.

(** ** C57 *)
Definition same_x (r r' : rect R) : Prop := Rect2D_left r' = Rect2D_left r /\ Rect2D_right r' = Rect2D_right r.
Definition same_y (r r' : rect R) : Prop := Rect2D_top r' = Rect2D_top r /\ Rect2D_bottom r' = Rect2D_bottom r.
Theorem C57_move_R : forall (r : rect R) (p : vec R) (x : R),
  (pt (Rect2D_center (Rect2D_move_center r p)) = pt p /\ r_size (Rect2D_move_center r p) = r_size r) /\
  (pt (Rect2D_top_left (Rect2D_move_top_left r p)) = pt p /\ r_size (Rect2D_move_top_left r p) = r_size r) /\
  (pt (Rect2D_bottom_right (Rect2D_move_bottom_right r p)) = pt p /\ r_size (Rect2D_move_bottom_right r p) = r_size r) /\
  (Rect2D_left (Rect2D_move_left r x) = x /\ r_size (Rect2D_move_left r x) = r_size r /\ same_y r (Rect2D_move_left r x)) /\
  (Rect2D_right (Rect2D_move_right r x) = x /\ r_size (Rect2D_move_right r x) = r_size r /\ same_y r (Rect2D_move_right r x)) /\
  (Rect2D_top (Rect2D_move_top r x) = x /\ r_size (Rect2D_move_top r x) = r_size r /\ same_x r (Rect2D_move_top r x)) /\
  (Rect2D_bottom (Rect2D_move_bottom r x) = x /\ r_size (Rect2D_move_bottom r x) = r_size r /\ same_x r (Rect2D_move_bottom r x)).
Proof.
  intros r p x. unfold same_x, same_y, pt, Rect2D_center. repeat match goal with |- _ /\ _ => split end.
  all: try reflexivity; runf; try (f_equal; field); try ring.
Qed.

(** ** C58 *)
Lemma nmin_Rmin x y : nmin x y = Rmin x y.
Proof. unfold nmin; rnum. unfold Rmin. destruct (Rle_dec x y); rcasesp; lra. Qed.
Lemma nmax_Rmax x y : nmax x y = Rmax x y.
Proof. unfold nmax; rnum. unfold Rmax. destruct (Rle_dec x y); rcasesp; lra. Qed.
Lemma abs_maxmin x y : Rabs (Rmax x y - Rmin x y) = Rmax x y - Rmin x y.
Proof. apply Rabs_pos_eq. pose proof (Rmin_l x y). pose proof (Rmax_l x y). lra. Qed.
Ltac rectminmax := rewrite ?nmin_Rmin, ?nmax_Rmax, ?abs_maxmin.
Theorem C58_set_side_R : forall (r : rect R) (x : R),
  let far_x := Rect2D_right r in let near_x := Rect2D_left r in
  let far_y := Rect2D_bottom r in let near_y := Rect2D_top r in
  (** set_left keeps the right side (as the left one, if x lies beyond it); likewise the others *)
  (Rect2D_left (Rect2D_set_left r x) = Rmin far_x x /\ Rect2D_right (Rect2D_set_left r x) = Rmax far_x x /\ same_y r (Rect2D_set_left r x)) /\
  (Rect2D_left (Rect2D_set_right r x) = Rmin near_x x /\ Rect2D_right (Rect2D_set_right r x) = Rmax near_x x /\ same_y r (Rect2D_set_right r x)) /\
  (Rect2D_top (Rect2D_set_top r x) = Rmin far_y x /\ Rect2D_bottom (Rect2D_set_top r x) = Rmax far_y x /\ same_x r (Rect2D_set_top r x)) /\
  (Rect2D_top (Rect2D_set_bottom r x) = Rmin near_y x /\ Rect2D_bottom (Rect2D_set_bottom r x) = Rmax near_y x /\ same_x r (Rect2D_set_bottom r x)).
Proof.
  intros r x far_x near_x far_y near_y. unfold same_x, same_y, Rect2D_set_left, Rect2D_set_right, Rect2D_set_top, Rect2D_set_bottom.
  rewrite !nmin_Rmin, !nmax_Rmax. fold far_x near_x far_y near_y.
  unfold Rect2D_right, Rect2D_bottom, Rect2D_left, Rect2D_top. cbn [r_top_left r_size Vector2D_set_x Vector2D_set_y Size2D_set_length Size2D_set_width vx vy sz_length sz_width]. rnum.
  rewrite !abs_maxmin.
  repeat match goal with |- _ /\ _ => split end; try reflexivity; ring.
Qed.

(** ** C59 *)
(** What set_top_left and set_bottom_right really do. *)
Theorem C59_set_corner_R : forall (r : rect R) (x y : R),
  (let q := Rect2D_set_top_left r x y in
   Rect2D_left q = Rmin (Rect2D_right r) x /\ Rect2D_right q = Rect2D_left q + Rabs (Rect2D_left q) /\
   Rect2D_top q = Rmin (Rect2D_bottom r) y /\ Rect2D_bottom q = Rmax (Rect2D_bottom r) y) /\
  (let q := Rect2D_set_bottom_right r x y in
   Rect2D_left q = Rmin (Rect2D_left r) x /\ Rect2D_right q = Rect2D_left q + Rabs (Rect2D_left q) /\
   Rect2D_top q = Rmin (Rect2D_top r) y /\ Rect2D_bottom q = Rmax (Rect2D_top r) y).
Proof.
  intros r x y. unfold Rect2D_set_top_left, Rect2D_set_bottom_right. cbv zeta. rewrite !nmin_Rmin, !nmax_Rmax.
  set (a := Rect2D_right r). set (b := Rect2D_bottom r). set (c := Rect2D_left r). set (d := Rect2D_top r). clearbody a b c d.
  unfold Rect2D_right, Rect2D_bottom, Rect2D_left, Rect2D_top, Rect2D_assign4. cbn [r_top_left r_size Vector2D_assign Size2D_assign vx vy sz_length sz_width]. rnum.
  rewrite !abs_maxmin. repeat split; ring.
Qed.
(** The documented contract (the other corner never changes) is violated. *)
Theorem C59_set_corner_refuted : exists (r : rect R) (x y : R), rect_ok r /\ x <= Rect2D_right r /\ y <= Rect2D_bottom r /\
  pt (Rect2D_bottom_right (Rect2D_set_top_left r x y)) <> pt (Rect2D_bottom_right r).
Proof.
  exists (Rect2D_of_nums 1 1 2 2), 2, 2. split; [split; apply Rabs_pos|].
  split; [runf; rewrite (Rabs_pos_eq 2) by lra; lra|]. split; [runf; rewrite (Rabs_pos_eq 2) by lra; lra|].
  intros E. apply (f_equal fst) in E.
  destruct (C59_set_corner_R (Rect2D_of_nums 1 1 2 2) 2 2) as ((Q1 & Q2 & _) & _).
  change (Rect2D_right (Rect2D_set_top_left (Rect2D_of_nums 1 1 2 2) 2 2) = Rect2D_right (Rect2D_of_nums 1 1 2 2)) in E.
  rewrite Q2, Q1 in E. revert E. runf. rewrite !(Rabs_pos_eq 2) by lra. rewrite Rmin_right by lra. rewrite Rabs_pos_eq by lra. lra.
Qed.

(** ** C60 *)
Theorem C60_two_corners_R : forall (p q : vec R) (r : rect R),
  (exists c, Rect2D_init [VVec p; VVec q] = Ok c /\ sz_length (r_size c) = 0 /\ sz_width (r_size c) = 0 /\
     Rect2D_area c = 0 /\ Rect2D_is_valid c = false /\
     (vy p <= vy q -> pt (r_top_left c) = (0, 0)) /\
     (vy q < vy p -> pt (r_top_left c) = (Rmin (vx p) (vx q), vy q))) /\
  sz_length (r_size (Rect2D_assign_corners r p q)) = 0 /\ sz_width (r_size (Rect2D_assign_corners r p q)) = 0.
Proof.
  intros p q r. unfold Rect2D_assign_corners, two_corner_fields. cbn [Rect2D_init]. unfold Rect2D_of_corners, two_corner_fields; rnum. cbn [vx vy Vector2D_of_vec V]. split.
  - eexists; split; [reflexivity|]. unfold Rect2D_area, Rect2D_is_valid, Size2D_is_valid, size0, vec0, Size2D_init, Vector2D_set_x, Vector2D_set_y, pt, V, Rmin; rnum.
    rewrite Rabs_R0. destruct (Rle_dec (vx p) (vx q)); rcasesp; cbn [vx vy sz_length sz_width r_size r_top_left]; rewrite ?(Rlt_bool_false 0 0) by lra; repeat split; intros; try lra; try (f_equal; lra); exfalso; cbn in *; lra.
  - rcasesp; cbn; rewrite Rabs_R0; easy.
Qed.
(** ... so even the two corners given are not in it. *)
Theorem C60_corners_not_contained_refuted : exists (p q : vec R) (c : rect R),
  Rect2D_init [VVec p; VVec q] = Ok c /\ Rect2D_contains c p = false /\ Rect2D_contains c q = false.
Proof.
  exists (mkVec 1 1 true), (mkVec 3 3 true). destruct (C60_two_corners_R (mkVec 1 1 true) (mkVec 3 3 true) (Rect2D_of_nums 0 0 0 0)) as ((c & E & H1 & H2 & _ & _ & H3 & _) & _).
  exists c. split; [easy|]. specialize (H3 ltac:(cbn; lra)). injection H3 as X Y.
  split; apply not_true_iff_false; rewrite rect_contains_R; unfold rpset; rewrite X, Y, H1, H2; cbn; lra.
Qed.

(** ** C61 *)
Lemma rect_set_all_set_all T (H : Num T) (r : rect T) a b c d a' b' c' d' :
  rect_set_all (rect_set_all r a b c d) a' b' c' d' = rect_set_all r a' b' c' d'.
Proof. reflexivity. Qed.
Lemma intersect_tail_R r o : intersect_tail r o =
  rect_set_all r (Rmax (Rect2D_left r) (Rect2D_left o)) (Rmax (Rect2D_top r) (Rect2D_top o))
    (Rmin (Rect2D_right r) (Rect2D_right o) - Rmax (Rect2D_left r) (Rect2D_left o))
    (Rmin (Rect2D_bottom r) (Rect2D_bottom o) - Rmax (Rect2D_top r) (Rect2D_top o)).
Proof.
  unfold intersect_tail. cbv zeta. rewrite !nmin_Rmin, !nmax_Rmax.
  match goal with |- context [if ?b then _ else _] => destruct b end; reflexivity.
Qed.
Theorem C61_intersected_R : forall (r o : rect R),
  let i := Rect2D_intersected r o in
  let l := Rmax (Rect2D_left r) (Rect2D_left o) in let t := Rmax (Rect2D_top r) (Rect2D_top o) in
  let rt := Rmin (Rect2D_right r) (Rect2D_right o) in let b := Rmin (Rect2D_bottom r) (Rect2D_bottom o) in
  (** positive overlap: the set intersection *)
  (l < rt -> t < b ->
     (forall p, Rect2D_contains i p = true <-> Rect2D_contains r p = true /\ Rect2D_contains o p = true) /\
     Rect2D_left i = l /\ Rect2D_right i = rt /\ Rect2D_top i = t /\ Rect2D_bottom i = b) /\
  (** any other operand of positive area: what is returned instead *)
  (Rect2D_is_valid o = true -> Rect2D_left i = l /\ Rect2D_top i = t /\
     Rect2D_right i = l + Rabs (rt - l) /\ Rect2D_bottom i = t + Rabs (b - t)) /\
  (** an operand of no area: self is first reset to the empty rectangle at the origin *)
  (Rect2D_is_valid o = false -> Rect2D_left i = Rmax 0 (Rect2D_left o) /\ Rect2D_top i = Rmax 0 (Rect2D_top o) /\
     Rect2D_right i = Rect2D_left i + Rabs (Rmin 0 (Rect2D_right o) - Rect2D_left i) /\
     Rect2D_bottom i = Rect2D_top i + Rabs (Rmin 0 (Rect2D_bottom o) - Rect2D_top i)).
Proof.
  intros r o i l t rt b. apply and_assoc. split.
  2: { intros V. unfold i, Rect2D_intersected. rewrite V. cbn [negb]. rewrite intersect_tail_R.
    unfold rect_set_all, Size2D_assign, Size2D_set_length, Size2D_set_width. runf. rewrite ?Rabs_R0, ?Rplus_0_r. repeat split. }
  assert (E : Rect2D_is_valid o = true -> Rect2D_left i = l /\ Rect2D_top i = t /\
     Rect2D_right i = l + Rabs (rt - l) /\ Rect2D_bottom i = t + Rabs (b - t)).
  { intros V. unfold i, Rect2D_intersected. rewrite V. cbn [negb]. rewrite intersect_tail_R. fold l t rt b. repeat split. }
  split; [|exact E]. intros H1 H2.
  assert (V : Rect2D_is_valid o = true).
  { unfold Rect2D_is_valid, Size2D_is_valid; rnum. rewrite andb_true_iff, !Rlt_bool_iff.
    pose proof (Rmax_r (Rect2D_left r) (Rect2D_left o)). pose proof (Rmin_r (Rect2D_right r) (Rect2D_right o)).
    pose proof (Rmax_r (Rect2D_top r) (Rect2D_top o)). pose proof (Rmin_r (Rect2D_bottom r) (Rect2D_bottom o)).
    assert (A : Rect2D_left o < Rect2D_right o) by (fold l in H; fold rt in H0; lra).
    assert (B : Rect2D_top o < Rect2D_bottom o) by (fold t in H3; fold b in H4; lra).
    revert A B. runf. intros; lra. }
  destruct (E V) as (E1 & E2 & E3 & E4). rewrite Rabs_pos_eq in E3 by lra. rewrite Rabs_pos_eq in E4 by lra.
  replace (l + (rt - l)) with rt in E3 by ring. replace (t + (b - t)) with b in E4 by ring.
  split; [|easy]. intros p.
  assert (CI : forall q, Rect2D_contains q p = true <-> Rect2D_left q <= vx p <= Rect2D_right q /\ Rect2D_top q <= vy p <= Rect2D_bottom q).
  { intros q. unfold Rect2D_contains; rnum. rewrite !andb_true_iff, !Rle_bool_iff. tauto. }
  rewrite !CI, E1, E2, E3, E4. unfold l, t, rt, b, Rmax, Rmin.
  repeat match goal with |- context [Rle_dec ?x ?y] => destruct (Rle_dec x y) end; split; intros; lra.
Qed.
Example C61_nonvacuous : let r := Rect2D_of_nums 0 0 4 4 in let o := Rect2D_of_nums 1 2 4 4 in
  Rmax (Rect2D_left r) (Rect2D_left o) < Rmin (Rect2D_right r) (Rect2D_right o) /\
  Rmax (Rect2D_top r) (Rect2D_top o) < Rmin (Rect2D_bottom r) (Rect2D_bottom o).
Proof. cbn. runf. rewrite !(Rabs_pos_eq 4) by lra. unfold Rmax, Rmin. repeat destruct (Rle_dec _ _); lra. Qed.
(** Disjoint rectangles: the result is not empty (documented: an empty rectangle). *)
Theorem C61_no_overlap_refuted : exists r o : rect R, rect_ok r /\ rect_ok o /\
  (forall p, ~ (Rect2D_contains r p = true /\ Rect2D_contains o p = true)) /\
  Rect2D_area (Rect2D_intersected r o) = 1.
Proof.
  exists (Rect2D_of_nums 0 0 1 1), (Rect2D_of_nums 2 2 1 1).
  assert (A : Rabs 1 = 1) by (apply Rabs_pos_eq; lra).
  split; [split; apply Rabs_pos|]. split; [split; apply Rabs_pos|]. split.
  - intros p. rewrite !rect_contains_R. unfold rpset; cbn. rewrite A. lra.
  - destruct (C61_intersected_R (Rect2D_of_nums 0 0 1 1) (Rect2D_of_nums 2 2 1 1)) as (_ & E & _).
    destruct E as (E1 & E2 & E3 & E4). { unfold Rect2D_is_valid, Size2D_is_valid; rnum; cbn. rewrite A. rewrite Rlt_bool_true by lra. easy. }
    destruct (C56_contains_R (Rect2D_intersected (Rect2D_of_nums 0 0 1 1) (Rect2D_of_nums 2 2 1 1)) (mkVec 0 0 true)) as (_ & _ & _ & _ & _ & _ & _ & _ & _ & Ar & _).
    { split; apply Rabs_pos. }
    rewrite Ar, E1, E2, E3, E4. revert E1. runf. intros _. rewrite A.
    rewrite (Rmax_right 0 2), (Rmin_left (0 + 1) (2 + 1)) by lra. rewrite (Rabs_left (0 + 1 - 2)) by lra. ring.
Qed.

(** ** C62 *)
Theorem C62_united_R : forall (r o : rect R), Rect2D_is_valid o = true ->
  let u := Rect2D_united r o in
  let l := Rmax (Rect2D_left r) (Rect2D_left o) in let t := Rmax (Rect2D_top r) (Rect2D_top o) in
  (** the exact value *)
  (Rect2D_left u = l /\ Rect2D_top u = t /\
   Rect2D_right u = l + Rabs (Rmin (Rect2D_left r) (Rect2D_right o) - l) /\
   Rect2D_bottom u = t + Rabs (Rmin (Rect2D_top r) (Rect2D_bottom o) - t)) /\
  (** never a union: the receiver's top-left corner or a point of the argument is missing *)
  ~ (Rect2D_contains u (Rect2D_top_left r) = true /\ (forall p, Rect2D_contains o p = true -> Rect2D_contains u p = true)).
Proof.
  intros r o V u l t.
  assert (E : Rect2D_left u = l /\ Rect2D_top u = t /\
   Rect2D_right u = l + Rabs (Rmin (Rect2D_left r) (Rect2D_right o) - l) /\
   Rect2D_bottom u = t + Rabs (Rmin (Rect2D_top r) (Rect2D_bottom o) - t)).
  { unfold u, Rect2D_united. rewrite V. cbn [negb]. cbv zeta. rewrite intersect_tail_R.
    assert (RR : Rect2D_right (mkRect (r_top_left r) (Size2D_assign (r_size r) (num 0) (num 0)) (r_is_valid r)) = Rect2D_left r).
    { runf. rewrite Rabs_R0. ring. }
    assert (RB : Rect2D_bottom (mkRect (r_top_left r) (Size2D_assign (r_size r) (num 0) (num 0)) (r_is_valid r)) = Rect2D_top r).
    { runf. rewrite Rabs_R0. ring. }
    rewrite RR, RB. repeat split. }
  split; [exact E|]. destruct E as (E1 & E2 & E3 & E4). intros [H1 H2].
  unfold Rect2D_is_valid, Size2D_is_valid in V; rnum_in V. rewrite andb_true_iff, !Rlt_bool_iff in V.
  assert (CI : forall q p, Rect2D_contains q p = true <-> Rect2D_left q <= vx p <= Rect2D_right q /\ Rect2D_top q <= vy p <= Rect2D_bottom q).
  { intros q p. unfold Rect2D_contains; rnum. rewrite !andb_true_iff, !Rle_bool_iff. tauto. }
  rewrite CI, E1, E2, E3, E4 in H1. cbn in H1. change (vx (r_top_left r)) with (Rect2D_left r) in H1. change (vy (r_top_left r)) with (Rect2D_top r) in H1.
  assert (RO : Rect2D_right o = Rect2D_left o + sz_length (r_size o)) by (runf; reflexivity).
  assert (BO : Rect2D_bottom o = Rect2D_top o + sz_width (r_size o)) by (runf; reflexivity).
  assert (HBR : Rect2D_contains u (Rect2D_bottom_right o) = true).
  { apply H2. rewrite CI. cbn. fold (Rect2D_right o) (Rect2D_bottom o) (Rect2D_left o) (Rect2D_top o). lra. }
  rewrite CI, E1, E2, E3, E4 in HBR. cbn in HBR. fold (Rect2D_right o) (Rect2D_bottom o) in HBR.
  pose proof (Rmax_l (Rect2D_left r) (Rect2D_left o)). pose proof (Rmax_r (Rect2D_left r) (Rect2D_left o)). fold l in H, H0.
  assert (l = Rect2D_left r) as L by lra. rewrite L in *.
  rewrite Rmin_left in HBR by lra. replace (Rect2D_left r - Rect2D_left r) with 0 in HBR by ring. rewrite Rabs_R0 in HBR.
  assert (HTL : Rect2D_contains u (Rect2D_top_left o) = true).
  { apply H2. rewrite CI. cbn. fold (Rect2D_right o) (Rect2D_bottom o) (Rect2D_left o) (Rect2D_top o). change (vx (r_top_left o)) with (Rect2D_left o). change (vy (r_top_left o)) with (Rect2D_top o). lra. }
  rewrite CI, E1, E2, E3, E4 in HTL. cbn in HTL. change (vx (r_top_left o)) with (Rect2D_left o) in HTL. lra.
Qed.
Example C62_nonvacuous : Rect2D_is_valid (Rect2D_of_nums 2 2 1 1) = true.
Proof. unfold Rect2D_is_valid, Size2D_is_valid; rnum; cbn. rewrite Rabs_pos_eq by lra. rewrite Rlt_bool_true by lra. easy. Qed.

(** ** C64 *)
Theorem C64_from_center_R : forall (x y l w : R) (v : vec R),
  (exists r, Rect2D_from_center [VNum x; VNum y; VNum l; VNum w] = Ok r /\
     sz_length (r_size r) = Rabs l /\ sz_width (r_size r) = Rabs w /\
     (0 <= l -> 0 <= w -> pt (Rect2D_center r) = (x, y)) /\
     (l < 0 -> px (pt (Rect2D_center r)) = x - l) /\ (w < 0 -> py (pt (Rect2D_center r)) = y - w)) /\
  Rect2D_from_center [VVec v; VNum l; VNum w] = Raise AttributeError.
Proof.
  intros x y l w v. split; [|reflexivity]. eexists; split; [reflexivity|]. unfold Rect2D_from_center4, Rect2D_of_nums. split; [reflexivity|]. split; [reflexivity|].
  unfold Rect2D_center, pt, px, py; runf. repeat split; intros.
  - rewrite !Rabs_pos_eq by easy. f_equal; field.
  - rewrite Rabs_left by easy. field.
  - rewrite Rabs_left by easy. field.
Qed.

(** ** C63 *)
(** the boundary of the rectangle *)
Definition on_boundary (r : rect R) (p : point) : Prop :=
  rpset r p /\ (px p = Rect2D_left r \/ px p = Rect2D_right r \/ py p = Rect2D_top r \/ py p = Rect2D_bottom r).
Definition vhit (r : rect R) (l : line R) (X : R) (h : list (vec R)) : Prop :=
  (h = [] \/ exists v, h = [v] /\ lpts l (pt v) /\ vx v = X /\ Rect2D_top r <= vy v <= Rect2D_bottom r) /\
  (Rabs (sz_width (r_size r) * l_b l) >= 1/1000000 -> forall q, lpts l q -> px q = X -> Rect2D_top r <= py q <= Rect2D_bottom r ->
     exists v, h = [v] /\ pt v = q).
Definition hhit (r : rect R) (l : line R) (Y : R) (h : list (vec R)) : Prop :=
  (h = [] \/ exists v, h = [v] /\ lpts l (pt v) /\ vy v = Y /\ Rect2D_left r <= vx v <= Rect2D_right r) /\
  (Rabs (sz_length (r_size r) * l_a l) >= 1/1000000 -> forall q, lpts l q -> py q = Y -> Rect2D_left r <= px q <= Rect2D_right r ->
     exists v, h = [v] /\ pt v = q).
Lemma lpts_of_iff l x y : lpts l (x, y) <-> l_a l * x + l_b l * y + l_c l = 0.
Proof. unfold lpts, on_line; cbn. tauto. Qed.
Lemma vside r l X e sols :
  l_a e = - sz_width (r_size r) -> l_b e = 0 -> l_c e = sz_width (r_size r) * X ->
  exists h, rect_vertical_side r sols e l = Ok (sols ++ h) /\ vhit r l X h.
Proof.
  intros Ea Eb Ec. unfold rect_vertical_side. destruct (C22_intersection_R e l) as (v & -> & V1 & _ & Q & _). cbn [bind].
  replace (Rabs (l_a e * l_b l - l_b e * l_a l)) with (Rabs (sz_width (r_size r) * l_b l)) in V1.
  2:{ rewrite Ea, Eb, <- Rabs_Ropp. f_equal. ring. }
  destruct (v_valid v) eqn:EV; cbn [andb].
  2:{ exists []. rewrite app_nil_r. split; [easy|]. split; [now left|]. intros K. apply V1 in K. discriminate. }
  pose proof (proj1 V1 eq_refl) as W. specialize (Q eq_refl).
  assert (W0 : sz_width (r_size r) <> 0) by (intros Z; rewrite Z, Rmult_0_l, Rabs_R0 in W; lra).
  assert (EX : forall q, lpts e q <-> px q = X).
  { intros q. unfold lpts, on_line. rewrite Ea, Eb, Ec. split; intros K.
    - apply Rmult_eq_reg_l with (sz_width (r_size r)); [|easy]. lra.
    - rewrite K. ring. }
  destruct (proj2 (Q (pt v)) eq_refl) as [K1 K2]. apply EX in K1.
  rnum.
  destruct (Rle_bool (Rect2D_top r) (vy v) && Rle_bool (vy v) (Rect2D_bottom r)) eqn:ER.
  - exists [v]. split; [reflexivity|]. rewrite andb_true_iff, !Rle_bool_iff in ER. split.
    + right. now exists v.
    + intros _ q Hq1 Hq2 _. exists v. split; [easy|]. symmetry. apply Q. split; [now apply EX|easy].
  - exists []. rewrite app_nil_r. split; [reflexivity|]. split; [now left|].
    intros _ q Hq1 Hq2 Hq3. assert (E : q = pt v) by (apply Q; split; [now apply EX|easy]).
    rewrite E in Hq3. apply andb_false_iff in ER. cbn in Hq3.
    destruct ER as [ER|ER]; apply not_true_iff_false in ER; rewrite Rle_bool_iff in ER; exfalso; apply ER; apply Hq3.
Qed.
Lemma hside r l Y e sols : (List.length sols < 2)%nat ->
  l_a e = 0 -> l_b e = sz_length (r_size r) -> l_c e = - (sz_length (r_size r) * Y) ->
  exists h, rect_horizontal_side r sols e l = Ok (sols ++ h) /\ hhit r l Y h.
Proof.
  intros HL Ea Eb Ec. unfold rect_horizontal_side. apply Nat.ltb_lt in HL. rewrite HL.
  destruct (C22_intersection_R e l) as (v & -> & V1 & _ & Q & _). cbn [bind].
  replace (Rabs (l_a e * l_b l - l_b e * l_a l)) with (Rabs (sz_length (r_size r) * l_a l)) in V1.
  2:{ rewrite Ea, Eb, <- Rabs_Ropp. f_equal. ring. }
  destruct (v_valid v) eqn:EV; cbn [andb].
  2:{ exists []. rewrite app_nil_r. split; [easy|]. split; [now left|]. intros K. apply V1 in K. discriminate. }
  pose proof (proj1 V1 eq_refl) as W. specialize (Q eq_refl).
  assert (W0 : sz_length (r_size r) <> 0) by (intros Z; rewrite Z, Rmult_0_l, Rabs_R0 in W; lra).
  assert (EX : forall q, lpts e q <-> py q = Y).
  { intros q. unfold lpts, on_line. rewrite Ea, Eb, Ec. split; intros K.
    - apply Rmult_eq_reg_l with (sz_length (r_size r)); [|easy]. lra.
    - rewrite K. ring. }
  destruct (proj2 (Q (pt v)) eq_refl) as [K1 K2]. apply EX in K1.
  rnum.
  destruct (Rle_bool (Rect2D_left r) (vx v) && Rle_bool (vx v) (Rect2D_right r)) eqn:ER.
  - exists [v]. split; [reflexivity|]. rewrite andb_true_iff, !Rle_bool_iff in ER. split.
    + right. now exists v.
    + intros _ q Hq1 Hq2 _. exists v. split; [easy|]. symmetry. apply Q. split; [now apply EX|easy].
  - exists []. rewrite app_nil_r. split; [reflexivity|]. split; [now left|].
    intros _ q Hq1 Hq2 Hq3. assert (E : q = pt v) by (apply Q; split; [now apply EX|easy]).
    rewrite E in Hq3. apply andb_false_iff in ER. cbn in Hq3.
    destruct ER as [ER|ER]; apply not_true_iff_false in ER; rewrite Rle_bool_iff in ER; exfalso; apply ER; apply Hq3.
Qed.
Lemma hside2 r l e (sols : list (vec R)) : (2 <= List.length sols)%nat -> rect_horizontal_side r sols e l = Ok sols.
Proof. intros H. unfold rect_horizontal_side. apply Nat.ltb_ge in H. now rewrite H. Qed.

(** The accepted points, side by side. *)
Lemma rect_line_sides r l : exists h1 h2 h3 h4 s,
  vhit r l (Rect2D_left r) h1 /\ vhit r l (Rect2D_right r) h2 /\
  (List.length (h1 ++ h2) < 2 -> hhit r l (Rect2D_top r) h3)%nat /\
  (2 <= List.length (h1 ++ h2) -> h3 = [])%nat /\
  (List.length (h1 ++ h2 ++ h3) < 2 -> hhit r l (Rect2D_bottom r) h4)%nat /\
  (2 <= List.length (h1 ++ h2 ++ h3) -> h4 = [])%nat /\
  s = h1 ++ h2 ++ h3 ++ h4 /\
  Rect2D_intersection_line r l = match s with
    | [p; q] => if Rlt_bool (Rabs (vx p - vx q)) (1/1000000) && Rlt_bool (Rabs (vy p - vy q)) (1/1000000) then Ok [p] else Ok [p; q]
    | _ => Ok s end.
Proof.
  unfold Rect2D_intersection_line.
  destruct (vside r l (Rect2D_left r) (Rect2D_left_edge r) []) as (h1 & E1 & H1).
  1,2,3: unfold Rect2D_left_edge; rewrite of_points_R; unfold Rect2D_top_left; runf; ring.
  rewrite E1. cbn [bind app].
  destruct (vside r l (Rect2D_right r) (Rect2D_right_edge r) h1) as (h2 & E2 & H2).
  1,2,3: unfold Rect2D_right_edge; rewrite of_points_R; unfold Rect2D_top_left; runf; ring.
  rewrite E2. cbn [bind].
  assert (L1 : (List.length h1 <= 1)%nat) by (destruct H1 as [[->|(v & -> & _)] _]; cbn; lia).
  assert (L2 : (List.length h2 <= 1)%nat) by (destruct H2 as [[->|(v & -> & _)] _]; cbn; lia).
  assert (S3 : exists h3, rect_horizontal_side r (h1 ++ h2) (Rect2D_top_edge r) l = Ok (h1 ++ h2 ++ h3) /\
    (List.length (h1 ++ h2) < 2 -> hhit r l (Rect2D_top r) h3)%nat /\ (2 <= List.length (h1 ++ h2) -> h3 = [])%nat).
  { destruct (Nat.ltb (List.length (h1 ++ h2)) 2) eqn:EL.
    - apply Nat.ltb_lt in EL. destruct (hside r l (Rect2D_top r) (Rect2D_top_edge r) (h1 ++ h2) EL) as (h3 & E3 & H3).
      1,2,3: unfold Rect2D_top_edge; rewrite of_points_R; unfold Rect2D_top_left; runf; ring.
      exists h3. rewrite <- app_assoc in E3. split; [easy|]. split; [easy|]. lia.
    - apply Nat.ltb_ge in EL. exists []. rewrite hside2, app_nil_r by easy. split; [easy|]. split; [lia|easy]. }
  destruct S3 as (h3 & E3 & H3 & H3'). rewrite E3. cbn [bind].
  assert (S4 : exists h4, rect_horizontal_side r (h1 ++ h2 ++ h3) (Rect2D_bottom_edge r) l = Ok (h1 ++ h2 ++ h3 ++ h4) /\
    (List.length (h1 ++ h2 ++ h3) < 2 -> hhit r l (Rect2D_bottom r) h4)%nat /\ (2 <= List.length (h1 ++ h2 ++ h3) -> h4 = [])%nat).
  { destruct (Nat.ltb (List.length (h1 ++ h2 ++ h3)) 2) eqn:EL.
    - apply Nat.ltb_lt in EL. destruct (hside r l (Rect2D_bottom r) (Rect2D_bottom_edge r) (h1 ++ h2 ++ h3) EL) as (h4 & E4 & H4).
      1,2,3: unfold Rect2D_bottom_edge; rewrite of_points_R; unfold Rect2D_top_left; runf; ring.
      exists h4. rewrite <- !app_assoc in E4. split; [easy|]. split; [easy|]. lia.
    - apply Nat.ltb_ge in EL. exists []. rewrite hside2, app_nil_r by easy. split; [easy|]. split; [lia|easy]. }
  destruct S4 as (h4 & E4 & H4 & H4'). rewrite E4. cbn [bind].
  exists h1, h2, h3, h4, (h1 ++ h2 ++ h3 ++ h4). repeat (split; [easy|]).
  destruct (h1 ++ h2 ++ h3 ++ h4) as [|p [|q [|]]]; reflexivity.
Qed.
Theorem C63_intersection_line_R : forall (r : rect R) (l : line R), rect_ok r ->
  exists sols, Rect2D_intersection r (VLine l) = Ok sols /\ (List.length sols <= 2)%nat /\
    forall p, List.In p sols -> lpts l (pt p) /\ on_boundary r (pt p).
Proof.
  intros r l [HL HW]. cbn [Rect2D_intersection].
  destruct (rect_line_sides r l) as (h1 & h2 & h3 & h4 & s & H1 & H2 & H3 & H3' & H4 & H4' & ES & ER).
  assert (LR : Rect2D_left r <= Rect2D_right r) by (runf; lra). assert (TB : Rect2D_top r <= Rect2D_bottom r) by (runf; lra).
  assert (B : forall x y, Rect2D_left r <= x <= Rect2D_right r -> Rect2D_top r <= y <= Rect2D_bottom r -> rpset r (x, y)).
  { intros x y. unfold rpset; runf. tauto. }
  assert (P : forall p, List.In p s -> lpts l (pt p) /\ on_boundary r (pt p)).
  { intros p Hp. rewrite ES in Hp. rewrite !in_app_iff in Hp. destruct Hp as [Hp|[Hp|[Hp|Hp]]].
    - destruct H1 as [[->|(v & -> & K1 & K2 & K3)] _]; [easy|]. destruct Hp as [<-|[]]. split; [easy|]. split; [apply B; [rewrite K2|]; lra|]. left; exact K2.
    - destruct H2 as [[->|(v & -> & K1 & K2 & K3)] _]; [easy|]. destruct Hp as [<-|[]]. split; [easy|]. split; [apply B; [rewrite K2|]; lra|]. right; left; exact K2.
    - destruct (Nat.lt_ge_cases (List.length (h1 ++ h2)) 2) as [E|E]; [|rewrite H3' in Hp; easy].
      destruct (H3 E) as [[->|(v & -> & K1 & K2 & K3)] _]; [easy|]. destruct Hp as [<-|[]]. split; [easy|]. split; [apply B; [|rewrite K2]; lra|]. right; right; left; exact K2.
    - destruct (Nat.lt_ge_cases (List.length (h1 ++ h2 ++ h3)) 2) as [E|E]; [|rewrite H4' in Hp; easy].
      destruct (H4 E) as [[->|(v & -> & K1 & K2 & K3)] _]; [easy|]. destruct Hp as [<-|[]]. split; [easy|]. split; [apply B; [|rewrite K2]; lra|]. right; right; right; exact K2. }
  assert (LS : (List.length s <= 2)%nat).
  { destruct (Nat.lt_ge_cases (List.length (h1 ++ h2 ++ h3)) 2) as [E|E].
    - destruct (H4 E) as [[->|(v & -> & _)] _]; rewrite ES, !app_length in *; cbn in *; lia.
    - rewrite (H4' E) in ES. rewrite app_nil_r in ES. rewrite ES.
      destruct (Nat.lt_ge_cases (List.length (h1 ++ h2)) 2) as [E'|E'].
      + destruct (H3 E') as [[->|(v & -> & _)] _]; rewrite !app_length in *; cbn in *; lia.
      + rewrite (H3' E'), app_nil_r. destruct H1 as [[->|(v & -> & _)] _]; destruct H2 as [[->|(v' & -> & _)] _]; cbn; lia. }
  rewrite ER. destruct s as [|p [|q [|x s]]]; cbn in LS; try lia.
  - exists []. auto.
  - exists [p]. auto.
  - destruct (_ && _).
    + exists [p]. split; [easy|]. split; [cbn; lia|]. intros p' [<-|[]]. apply P; cbn; auto.
    + exists [p; q]. auto.
Qed.
Lemma merge_keep (s : list (vec R)) (v : vec R) : List.In v s ->
  exists sols, match s with
    | [p; q] => if Rlt_bool (Rabs (vx p - vx q)) (1/1000000) && Rlt_bool (Rabs (vy p - vy q)) (1/1000000) then Ok [p] else Ok [p; q]
    | _ => Ok s end = Ok sols /\ exists p, List.In p sols /\ tiny (vx p - vx v) (vy p - vy v).
Proof.
  intros H. assert (D : exists sols, Ok s = Ok sols /\ exists p, List.In p sols /\ tiny (vx p - vx v) (vy p - vy v)).
  { exists s. split; [easy|]. exists v. split; [easy|]. apply tiny_refl. }
  destruct s as [|p [|q [|x s]]]; try exact D.
  destruct (_ && _) eqn:E; [|exact D]. rewrite andb_true_iff, !Rlt_bool_iff in E.
  exists [p]. split; [easy|]. exists p. split; [now left|].
  destruct H as [<-|[<-|[]]]; [apply tiny_refl|]. easy.
Qed.
(** A line that meets the rectangle is reported, unless it is nearly (but not
    exactly) parallel to a side. *)
Theorem C63_meets_reported_R : forall (r : rect R) (l : line R) (q : point), rect_ok r ->
  lpts l q -> rpset r q -> (l_a l <> 0 \/ l_b l <> 0) ->
  (l_b l = 0 \/ Rabs (sz_width (r_size r) * l_b l) >= 1/1000000) ->
  (l_a l = 0 \/ Rabs (sz_length (r_size r) * l_a l) >= 1/1000000) ->
  exists p sols, Rect2D_intersection r (VLine l) = Ok (p :: sols).
Proof.
  intros r l [x0 y0] [HL HW] Hq HR Hne Hb Ha. cbn [Rect2D_intersection].
  destruct (rect_line_sides r l) as (h1 & h2 & h3 & h4 & s & H1 & H2 & H3 & H3' & H4 & H4' & ES & ER).
  set (Le := Rect2D_left r) in *. set (Ri := Rect2D_right r) in *. set (To := Rect2D_top r) in *. set (Bo := Rect2D_bottom r) in *.
  assert (HR' : Le <= x0 <= Ri /\ To <= y0 <= Bo). { revert HR. unfold rpset, Le, Ri, To, Bo; runf. tauto. }
  apply (proj1 (lpts_of_iff _ _ _)) in Hq.
  assert (G : exists v, List.In v s).
  { assert (GT : forall x, lpts l (x, To) -> Le <= x <= Ri -> l_a l <> 0 -> exists v, List.In v s).
    { intros x K1 K2 K3. destruct (Nat.lt_ge_cases (List.length (h1 ++ h2)) 2) as [E|E].
      - destruct (proj2 (H3 E) ltac:(tauto) (x, To) K1 eq_refl K2) as (v & -> & _). exists v. rewrite ES, !in_app_iff. cbn; auto.
      - rewrite ES, app_assoc. destruct (h1 ++ h2) as [|v t]; [cbn in E; lia|]. exists v. now left. }
    destruct (Req_dec (l_b l) 0) as [Z|Z].
    - apply (GT x0); [apply (proj2 (lpts_of_iff _ _ _)); rewrite Z in Hq |- *; lra|easy|tauto].
    - assert (Hb' : Rabs (sz_width (r_size r) * l_b l) >= 1/1000000) by tauto.
      assert (YL : forall x, lpts l (x, - (l_a l * x + l_c l) / l_b l)) by (intros x; apply (proj2 (lpts_of_iff _ _ _)); field; easy).
      destruct H1 as [_ H1]. destruct H2 as [_ H2].
      set (yl := - (l_a l * Le + l_c l) / l_b l) in *. set (yr := - (l_a l * Ri + l_c l) / l_b l) in *.
      assert (EL : l_a l * Le + l_b l * yl + l_c l = 0) by (unfold yl; field; easy).
      assert (ERr : l_a l * Ri + l_b l * yr + l_c l = 0) by (unfold yr; field; easy).
      destruct (Rle_dec To yl) as [A1|A1]; [destruct (Rle_dec yl Bo) as [A2|A2]|].
      1:{ destruct (H1 Hb' (Le, yl) (YL Le) eq_refl (conj A1 A2)) as (v & -> & _). exists v. rewrite ES. now left. }
      all: destruct (Rle_dec To yr) as [B1|B1]; [destruct (Rle_dec yr Bo) as [B2|B2]|].
      1,4: destruct (H2 Hb' (Ri, yr) (YL Ri) eq_refl (conj B1 B2)) as (v & -> & _); exists v; rewrite ES, !in_app_iff; cbn; auto.
      (* y0 is between yl and yr *)
      all: assert (BT : (Ri - Le) * y0 = (Ri - x0) * yl + (x0 - Le) * yr) by (apply Rmult_eq_reg_l with (l_b l); [|easy];
        replace (l_b l * ((Ri - x0) * yl + (x0 - Le) * yr)) with ((Ri - x0) * (l_b l * yl) + (x0 - Le) * (l_b l * yr)) by ring;
        replace (l_b l * yl) with (- (l_a l * Le + l_c l)) by lra; replace (l_b l * yr) with (- (l_a l * Ri + l_c l)) by lra;
        replace (l_b l * ((Ri - Le) * y0)) with ((Ri - Le) * (l_b l * y0)) by ring; replace (l_b l * y0) with (- (l_a l * x0 + l_c l)) by lra; ring).
      all: assert (CASE : Ri = Le -> False) by (intros E; assert (x0 = Le) by lra; assert (y0 = yl) by (apply Rmult_eq_reg_l with (l_b l); [|easy]; rewrite H in Hq; lra);
        assert (yr = yl) by (apply Rmult_eq_reg_l with (l_b l); [|easy]; rewrite E in ERr; lra); lra).
      all: assert (PW : 0 < Ri - Le) by (destruct (Req_dec Ri Le); [exfalso; auto|lra]).
      + (* both above Bo *) exfalso. assert ((Ri - Le) * y0 > (Ri - Le) * Bo); [|nra].
        rewrite BT. replace ((Ri - Le) * Bo) with ((Ri - x0) * Bo + (x0 - Le) * Bo) by ring. destruct (Req_dec x0 Ri); nra.
      + (* yl > Bo, yr < To *)
        assert (NA : l_a l <> 0). { intros E. rewrite E in *. assert (yl = yr) by (apply Rmult_eq_reg_l with (l_b l); [lra|easy]). lra. }
        apply (GT (Le + (Ri - Le) * ((yl - To) / (yl - yr)))); [|split|easy].
        * apply (proj2 (lpts_of_iff _ _ _)). assert (E : l_a l * (Ri - Le) = - l_b l * (yr - yl)) by lra.
          replace (l_a l * (Le + (Ri - Le) * ((yl - To) / (yl - yr)))) with (l_a l * Le + (l_a l * (Ri - Le)) * ((yl - To) / (yl - yr))) by ring.
          rewrite E. replace (l_a l * Le) with (- (l_b l * yl + l_c l)) by lra. field. lra.
        * assert (0 <= (yl - To) / (yl - yr)) by (apply Rmult_le_pos; [lra|left; apply Rinv_0_lt_compat; lra]). nra.
        * assert ((yl - To) / (yl - yr) <= 1) by (apply Rmult_le_reg_r with (yl - yr); [lra|]; field_simplify; lra). nra.
      + (* yl < To, yr > Bo *)
        assert (NA : l_a l <> 0). { intros E. rewrite E in *. assert (yl = yr) by (apply Rmult_eq_reg_l with (l_b l); [lra|easy]). lra. }
        apply (GT (Le + (Ri - Le) * ((To - yl) / (yr - yl)))); [|split|easy].
        * apply (proj2 (lpts_of_iff _ _ _)). assert (E : l_a l * (Ri - Le) = - l_b l * (yr - yl)) by lra.
          replace (l_a l * (Le + (Ri - Le) * ((To - yl) / (yr - yl)))) with (l_a l * Le + (l_a l * (Ri - Le)) * ((To - yl) / (yr - yl))) by ring.
          rewrite E. replace (l_a l * Le) with (- (l_b l * yl + l_c l)) by lra. field. lra.
        * assert (0 <= (To - yl) / (yr - yl)) by (apply Rmult_le_pos; [lra|left; apply Rinv_0_lt_compat; lra]). nra.
        * assert ((To - yl) / (yr - yl) <= 1) by (apply Rmult_le_reg_r with (yr - yl); [lra|]; field_simplify; lra). nra.
      + exfalso. assert ((Ri - Le) * y0 < (Ri - Le) * To); [|nra].
        rewrite BT. replace ((Ri - Le) * To) with ((Ri - x0) * To + (x0 - Le) * To) by ring. destruct (Req_dec x0 Ri); nra. }
  destruct G as [v Hv]. destruct (merge_keep s v Hv) as (sols & ES' & p & Hp & _). rewrite ER, ES'.
  destruct sols as [|p' sols]; [easy|]. now exists p', sols.
Qed.
(** If moreover no corner is on the line, every common point of line and
    boundary is returned (up to dropping the second of two weakly equal points). *)
Ltac nolra := match goal with N : _ <> 0 |- _ => exfalso; apply N; lra end.
Theorem C63_complete_R : forall (r : rect R) (l : line R) (q : point), rect_ok r ->
  lpts l q -> on_boundary r q ->
  (forall c, List.In c [Rect2D_top_left r; Rect2D_top_right r; Rect2D_bottom_left r; Rect2D_bottom_right r] -> ~ lpts l (pt c)) ->
  (l_b l = 0 \/ Rabs (sz_width (r_size r) * l_b l) >= 1/1000000) ->
  (l_a l = 0 \/ Rabs (sz_length (r_size r) * l_a l) >= 1/1000000) ->
  exists sols, Rect2D_intersection r (VLine l) = Ok sols /\
    exists p, List.In p sols /\ tiny (vx p - px q) (vy p - py q).
Proof.
  intros r l [x0 y0] [HL HW] Hq [HR HB] NC Hb Ha. cbn [Rect2D_intersection].
  destruct (rect_line_sides r l) as (h1 & h2 & h3 & h4 & s & H1 & H2 & H3 & H3' & H4 & H4' & ES & ER).
  set (Le := Rect2D_left r) in *. set (Ri := Rect2D_right r) in *. set (To := Rect2D_top r) in *. set (Bo := Rect2D_bottom r) in *.
  assert (HR' : Le <= x0 <= Ri /\ To <= y0 <= Bo). { revert HR. unfold rpset, Le, Ri, To, Bo; runf. tauto. }
  assert (N1 : l_a l * Le + l_b l * To + l_c l <> 0). { rewrite <- lpts_of_iff. apply (NC (Rect2D_top_left r)). cbn; auto. }
  assert (N2 : l_a l * Ri + l_b l * To + l_c l <> 0). { rewrite <- lpts_of_iff. apply (NC (Rect2D_top_right r)). cbn; auto. }
  assert (N3 : l_a l * Le + l_b l * Bo + l_c l <> 0). { rewrite <- lpts_of_iff. apply (NC (Rect2D_bottom_left r)). cbn; auto. }
  assert (N4 : l_a l * Ri + l_b l * Bo + l_c l <> 0). { rewrite <- lpts_of_iff. apply (NC (Rect2D_bottom_right r)). cbn; auto. }
  clear NC. apply (proj1 (lpts_of_iff _ _ _)) in Hq. cbn [px py fst snd] in *.
  assert (FIN : forall v, List.In v s -> pt v = (x0, y0) -> exists sols, Rect2D_intersection_line r l = Ok sols /\
    exists p, List.In p sols /\ tiny (vx p - x0) (vy p - y0)).
  { intros v Hv E. injection E as <- <-. rewrite ER. now apply merge_keep. }
  (* strict versions of the side hits *)
  assert (V1 : forall X h, X = Le \/ X = Ri -> vhit r l X h -> h <> [] -> exists y, To < y < Bo /\ l_a l * X + l_b l * y + l_c l = 0).
  { intros X h HX [[->|(v & -> & K1 & K2 & K3)] _] Hh; [easy|]. exists (vy v). unfold lpts, on_line, pt in K1. cbn in K1. rewrite K2 in K1. fold To Bo in K3.
    split; [|exact K1]. split; [destruct (Req_dec To (vy v)) as [E|E]|destruct (Req_dec (vy v) Bo) as [E|E]]; try lra; exfalso; [rewrite <- E in K1|rewrite E in K1]; destruct HX as [-> | ->]; nolra. }
  assert (V2 : hhit r l To h3 -> h3 <> [] -> exists x, Le < x < Ri /\ l_a l * x + l_b l * To + l_c l = 0).
  { intros [[->|(v & -> & K1 & K2 & K3)] _] Hh; [easy|]. exists (vx v). unfold lpts, on_line, pt in K1. cbn in K1. rewrite K2 in K1. fold Le Ri in K3.
    split; [|exact K1]. split; [destruct (Req_dec Le (vx v)) as [E|E]|destruct (Req_dec (vx v) Ri) as [E|E]]; try lra; exfalso; [rewrite <- E in K1|rewrite E in K1]; nolra. }
  (* a line through the interiors of both vertical sides misses the horizontal ones *)
  assert (G1 : forall Y y1 y2 x, Y = To \/ Y = Bo -> To < y1 < Bo -> To < y2 < Bo -> Le < x < Ri ->
     l_a l * Le + l_b l * y1 + l_c l = 0 -> l_a l * Ri + l_b l * y2 + l_c l = 0 -> l_a l * x + l_b l * Y + l_c l = 0 -> False).
  { intros Y y1 y2 x HY A B C E1 E2 E3.
    assert (K : l_b l * ((Ri - Le) * Y - ((Ri - x) * y1 + (x - Le) * y2)) = 0).
    { replace (l_b l * ((Ri - Le) * Y - ((Ri - x) * y1 + (x - Le) * y2))) with ((Ri - Le) * (l_b l * Y) - (Ri - x) * (l_b l * y1) - (x - Le) * (l_b l * y2)) by ring.
      replace (l_b l * Y) with (- (l_a l * x + l_c l)) by lra. replace (l_b l * y1) with (- (l_a l * Le + l_c l)) by lra. replace (l_b l * y2) with (- (l_a l * Ri + l_c l)) by lra. ring. }
    apply Rmult_integral in K. destruct K as [K|K].
    - rewrite K in *. assert (l_a l * (x - Le) = 0) by lra. apply Rmult_integral in H. destruct H as [H|H]; [|lra]. rewrite H in *. nolra.
    - assert (P1 : 0 < Ri - x) by lra. assert (P2 : 0 < x - Le) by lra. destruct HY as [->| ->].
      + assert (0 < (Ri - x) * (y1 - To)) by (apply Rmult_lt_0_compat; lra). assert (0 < (x - Le) * (y2 - To)) by (apply Rmult_lt_0_compat; lra). lra.
      + assert (0 < (Ri - x) * (Bo - y1)) by (apply Rmult_lt_0_compat; lra). assert (0 < (x - Le) * (Bo - y2)) by (apply Rmult_lt_0_compat; lra). lra. }
  assert (G2 : forall X x1 x2 y, X = Le \/ X = Ri -> Le < x1 < Ri -> Le < x2 < Ri -> To < y < Bo ->
     l_a l * x1 + l_b l * To + l_c l = 0 -> l_a l * x2 + l_b l * Bo + l_c l = 0 -> l_a l * X + l_b l * y + l_c l = 0 -> False).
  { intros X x1 x2 y HX A B C E1 E2 E3.
    assert (K : l_a l * ((Bo - To) * X - ((Bo - y) * x1 + (y - To) * x2)) = 0).
    { replace (l_a l * ((Bo - To) * X - ((Bo - y) * x1 + (y - To) * x2))) with ((Bo - To) * (l_a l * X) - (Bo - y) * (l_a l * x1) - (y - To) * (l_a l * x2)) by ring.
      replace (l_a l * X) with (- (l_b l * y + l_c l)) by lra. replace (l_a l * x1) with (- (l_b l * To + l_c l)) by lra. replace (l_a l * x2) with (- (l_b l * Bo + l_c l)) by lra. ring. }
    apply Rmult_integral in K. destruct K as [K|K].
    - rewrite K in *. assert (l_b l * (y - To) = 0) by lra. apply Rmult_integral in H. destruct H as [H|H]; [|lra]. rewrite H in *. nolra.
    - assert (P1 : 0 < Bo - y) by lra. assert (P2 : 0 < y - To) by lra. destruct HX as [->| ->].
      + assert (0 < (Bo - y) * (x1 - Le)) by (apply Rmult_lt_0_compat; lra). assert (0 < (y - To) * (x2 - Le)) by (apply Rmult_lt_0_compat; lra). lra.
      + assert (0 < (Bo - y) * (Ri - x1)) by (apply Rmult_lt_0_compat; lra). assert (0 < (y - To) * (Ri - x2)) by (apply Rmult_lt_0_compat; lra). lra. }
  destruct HB as [E|[E|[E|E]]].
  - (* left *)
    assert (B0 : l_b l <> 0) by (intros Z; rewrite Z, E in Hq; rewrite Z in N1, N2, N3, N4; nolra).
    destruct (proj2 H1 ltac:(tauto) (x0, y0) ltac:(now apply (proj2 (lpts_of_iff _ _ _))) E (proj2 HR')) as (v & -> & Hv).
    apply (FIN v); [rewrite ES; now left|easy].
  - assert (B0 : l_b l <> 0) by (intros Z; rewrite Z, E in Hq; rewrite Z in N1, N2, N3, N4; nolra).
    destruct (proj2 H2 ltac:(tauto) (x0, y0) ltac:(now apply (proj2 (lpts_of_iff _ _ _))) E (proj2 HR')) as (v & -> & Hv).
    apply (FIN v); [rewrite ES, !in_app_iff; cbn; auto|easy].
  - assert (A0 : l_a l <> 0) by (intros Z; rewrite Z, E in Hq; rewrite Z in N1, N2, N3, N4; nolra).
    assert (SX : Le < x0 < Ri). { split; [destruct (Req_dec Le x0) as [K|K]|destruct (Req_dec x0 Ri) as [K|K]]; try lra; exfalso; rewrite E in Hq; [rewrite <- K in Hq|rewrite K in Hq]; nolra. }
    destruct (Nat.lt_ge_cases (List.length (h1 ++ h2)) 2) as [EL|EL].
    + destruct (proj2 (H3 EL) ltac:(tauto) (x0, y0) ltac:(now apply (proj2 (lpts_of_iff _ _ _))) E (proj1 HR')) as (v & -> & Hv).
      apply (FIN v); [rewrite ES, !in_app_iff; cbn; auto|easy].
    + exfalso.
      assert (h1 <> [] /\ h2 <> []) as [Z1 Z2].
      { destruct H1 as [[->|(v & -> & _)] _]; destruct H2 as [[->|(v' & -> & _)] _]; cbn in EL; try lia. split; discriminate. }
      destruct (V1 Le h1 (or_introl eq_refl) H1 Z1) as (y1 & Y1 & F1). destruct (V1 Ri h2 (or_intror eq_refl) H2 Z2) as (y2 & Y2 & F2).
      apply (G1 To y1 y2 x0); auto. rewrite <- E. easy.
  - assert (A0 : l_a l <> 0) by (intros Z; rewrite Z, E in Hq; rewrite Z in N1, N2, N3, N4; nolra).
    assert (SX : Le < x0 < Ri). { split; [destruct (Req_dec Le x0) as [K|K]|destruct (Req_dec x0 Ri) as [K|K]]; try lra; exfalso; rewrite E in Hq; [rewrite <- K in Hq|rewrite K in Hq]; nolra. }
    destruct (Nat.lt_ge_cases (List.length (h1 ++ h2 ++ h3)) 2) as [EL|EL].
    + destruct (proj2 (H4 EL) ltac:(tauto) (x0, y0) ltac:(now apply (proj2 (lpts_of_iff _ _ _))) E (proj1 HR')) as (v & -> & Hv).
      apply (FIN v); [rewrite ES, !in_app_iff; cbn; auto|easy].
    + exfalso. rewrite E in Hq.
      destruct (Nat.lt_ge_cases (List.length (h1 ++ h2)) 2) as [EL2|EL2].
      * assert (Z3 : h3 <> []) by (intros Z; rewrite Z, app_nil_r in EL; lia).
        destruct (V2 (H3 EL2) Z3) as (x3 & X3 & F3).
        assert (h1 <> [] \/ h2 <> []) as [Z1|Z1].
        { destruct (H3 EL2) as [[->|(v3 & -> & _)] _]; [easy|]. destruct H1 as [[->|(v & -> & _)] _]; [|left; discriminate]. destruct H2 as [[->|(v' & -> & _)] _]; [|right; discriminate]. cbn in EL; lia. }
        -- destruct (V1 Le h1 (or_introl eq_refl) H1 Z1) as (y1 & Y1 & F1). apply (G2 Le x3 x0 y1); auto.
        -- destruct (V1 Ri h2 (or_intror eq_refl) H2 Z1) as (y1 & Y1 & F1). apply (G2 Ri x3 x0 y1); auto.
      * assert (h1 <> [] /\ h2 <> []) as [Z1 Z2].
        { destruct H1 as [[->|(v & -> & _)] _]; destruct H2 as [[->|(v' & -> & _)] _]; cbn in EL2; try lia. split; discriminate. }
        destruct (V1 Le h1 (or_introl eq_refl) H1 Z1) as (y1 & Y1 & F1). destruct (V1 Ri h2 (or_intror eq_refl) H2 Z2) as (y2 & Y2 & F2).
        apply (G1 Bo y1 y2 x0); auto.
Qed.
Example C63_nonvacuous : let r := mkRect (mkVec 0 0 true) (mkSize 4 2) true in let l := mkLine 0 1 (-1) in
  rect_ok r /\ lpts l (0, 1) /\ on_boundary r (0, 1) /\
  (forall c, List.In c [Rect2D_top_left r; Rect2D_top_right r; Rect2D_bottom_left r; Rect2D_bottom_right r] -> ~ lpts l (pt c)) /\
  (l_b l = 0 \/ Rabs (sz_width (r_size r) * l_b l) >= 1/1000000) /\ (l_a l = 0 \/ Rabs (sz_length (r_size r) * l_a l) >= 1/1000000).
Proof.
  cbn. unfold rect_ok, on_boundary, rpset, lpts, on_line; cbn. repeat split; try lra.
  - intros c [<-|[<-|[<-|[<-|[]]]]]; cbn; rnum; lra.
  - right. rewrite Rabs_pos_eq; lra.
Qed.
(** A line through the top left corner and the bottom side: the second
    crossing is lost, because the corner has used up both slots. *)
Theorem C63_corner_refuted : exists (r : rect R) (l : line R) (v : vec R) (q : point),
  Rect2D_intersection r (VLine l) = Ok [v] /\ lpts l q /\ on_boundary r q /\ edist q (pt v) > 2.
Proof.
  set (r := mkRect (mkVec 0 0 true) (mkSize 2 2) true). set (l := mkLine (-2) 1 0).
  destruct (rect_line_sides r l) as (h1 & h2 & h3 & h4 & s & H1 & H2 & H3 & H3' & H4 & H4' & ES & ER).
  destruct H1 as [_ H1]. destruct (H1 ltac:(cbn; rewrite Rabs_pos_eq; lra) (0, 0)) as (v & -> & Hv); [unfold lpts, on_line; cbn; lra|reflexivity|cbn; rnum; lra|]. clear H1.
  destruct H2 as [H2 _]. assert (h2 = []).
  { destruct H2 as [->|(w & -> & K1 & K2 & K3)]; [easy|]. unfold lpts, on_line in K1. cbn in K1, K2, K3. rewrite K2 in K1. unfold Rect2D_left in *; cbn in *. rnum_in K1. rnum_in K3. lra. } subst h2.
  specialize (H3 ltac:(cbn; lia)). destruct H3 as [_ H3].
  destruct (H3 ltac:(cbn; rewrite Rabs_left; lra) (0, 0)) as (w & -> & Hw); [unfold lpts, on_line; cbn; lra|reflexivity|cbn; rnum; lra|]. clear H3.
  rewrite H4' in ES by (cbn; lia). cbn in ES. rewrite ES in ER.
  injection Hv as Hv1 Hv2. injection Hw as Hw1 Hw2. rewrite Hv1, Hv2, Hw1, Hw2 in ER.
  replace (Rlt_bool (Rabs (0 - 0)) (1/1000000)) with true in ER. 2:{ symmetry. apply Rlt_bool_iff. rewrite Rminus_0_r, Rabs_R0. lra. }
  exists r, l, v, (1, 2). split; [exact ER|]. split; [unfold lpts, on_line; cbn; lra|]. split.
  - unfold on_boundary, rpset; cbn; rnum. split; [lra|]. right; right; right; lra.
  - unfold edist, norm, norm2, dot, psub, pt. cbn. rewrite Hv1, Hv2. replace (_ + _) with 5 by ring.
    apply Rlt_gt. rewrite <- (sqrt_square 2) by lra. apply sqrt_lt_1; lra.
Qed.
Section C63.
  Context {T} {N : Num T}.
  Lemma rect_line_len (r : rect T) l sols : Rect2D_intersection_line r l = Ok sols -> (List.length sols <= 2)%nat.
  Proof.
    assert (HV : forall s e s', rect_vertical_side r s e l = Ok s' -> (List.length s' <= List.length s + 1)%nat).
    { intros s e s'. unfold rect_vertical_side. destruct (Line2D_intersection e l); cbn [bind]; [|discriminate].
      destruct (_ && _); intros [= <-]; rewrite ?app_length; cbn; lia. }
    assert (HH : forall s e s', rect_horizontal_side r s e l = Ok s' -> (List.length s <= 2 -> List.length s' <= 2)%nat).
    { intros s e s'. unfold rect_horizontal_side. destruct (Nat.ltb (List.length s) 2) eqn:E; [|now intros [= <-]].
      apply Nat.ltb_lt in E. destruct (Line2D_intersection e l); cbn [bind]; [|discriminate].
      destruct (_ && _); intros [= <-]; rewrite ?app_length; cbn; lia. }
    unfold Rect2D_intersection_line.
    destruct (rect_vertical_side r [] _ l) as [s1|] eqn:E1; cbn [bind]; [|discriminate]. apply HV in E1.
    destruct (rect_vertical_side r s1 _ l) as [s2|] eqn:E2; cbn [bind]; [|discriminate]. apply HV in E2.
    destruct (rect_horizontal_side r s2 _ l) as [s3|] eqn:E3; cbn [bind]; [|discriminate]. apply HH in E3; [|cbn in E1; lia].
    destruct (rect_horizontal_side r s3 _ l) as [s4|] eqn:E4; cbn [bind]; [|discriminate]. apply HH in E4; [|easy].
    destruct s4 as [|p [|q [|x s4]]]; try (intros [= <-]; exact E4).
    destruct (_ && _); intros [= <-]; cbn; lia.
  Qed.
  (** In every arithmetic: with a segment, the crossings of its line that the segment accepts. *)
  Theorem C63_intersection_seg : forall (r : rect T) (s : seg T) (sols : list (vec T)),
    Rect2D_intersection r (VLine (Segment2D_line s)) = Ok sols ->
    Rect2D_intersection r (VSeg s) = Ok (List.filter (Segment2D_contains s) sols).
  Proof.
    intros r s sols E. cbn [Rect2D_intersection] in *. unfold Rect2D_intersection_seg. rewrite E. cbn [bind].
    apply filter_sols_spec; [now apply rect_line_len in E|easy].
  Qed.
  Theorem C63_intersection_other_raises : forall (r : rect T) (v : val T),
    (forall l, v <> VLine l) -> (forall ry, v <> VRay ry) -> (forall s, v <> VSeg s) ->
    Rect2D_intersection r v = Raise GenericException.
  Proof. intros r v H1 H2 H3. destruct v; try reflexivity; exfalso; [eapply H1|eapply H3|eapply H2]; reflexivity. Qed.
End C63.
Theorem C63_intersection_ray_R : forall (r : rect R) (ry : ray R),
  exists l sols, Line2D_init [VVec (ray_origin ry); VAng (ray_dir ry)] [] = Ok l /\
    Rect2D_intersection r (VLine l) = Ok sols /\
    Rect2D_intersection r (VRay ry) = Ok (List.filter (fun p => says_yes (Ray2D_in_right_dir_thr ry p 1)) sols).
Proof.
  intros r ry. cbn [Line2D_init Rect2D_intersection]. unfold Rect2D_intersection_ray, Ray2D_line.
  rewrite line_of_angle_R. eexists.
  match goal with |- exists sols, Ok ?x = Ok _ /\ _ => set (l := x) end.
  assert (ES : exists sols, Rect2D_intersection_line r l = Ok sols).
  { destruct (rect_line_sides r l) as (h1 & h2 & h3 & h4 & s & _ & _ & _ & _ & _ & _ & _ & ->).
    destruct s as [|p [|q [|x s]]]; try (eexists; reflexivity). destruct (_ && _); eexists; reflexivity. }
  destruct ES as [sols ES]. exists sols. split; [reflexivity|]. split; [exact ES|].
  cbn [bind]. rewrite ES. cbn [bind]. apply filter_sols_spec; [now apply rect_line_len in ES|].
  intros p _. rewrite !in_right_dir_thr_R. reflexivity.
Qed.
