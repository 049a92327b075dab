(** * P_Fail2: vectors and shapes after calls that raised (C193) *)
From Coq Require Import ZArith List Bool String Reals Lra Lia.
From Flocq Require Import Core BinarySingleNaN.
From Verif Require Import Base Types NumR NumF R_Tac Spec Abs M_Angle M_Vector M_Line M_Ray M_Triangle M_Segment M_Circle M_Sector M_Rect M_Fail
  L_Angle L_Float P_Float P_Angle P_AngleF P_TrigF P_SafeF P_Fail.
Import ListNotations.
Local Open Scope R_scope.

(** ** Vectors *)
(** the calls that change a vector and can raise *)
Inductive vec_call {T} :=
| VSetPolar (r : T) (a : ang_arg T) | VSetDir (a : ang_arg T) | VRotate (a : ang_arg T) | VSetLength (l : T)
| VAdd (args : list (val T)) | VSub (args : list (val T)) | VIdiv (k : T).
Definition st_vec {T} {N : Num T} (c : vec_call) : body (vec T) unit :=
  match c with
  | VSetPolar r a => st_set_polar r a | VSetDir a => st_set_dir a | VRotate a => st_rotate a | VSetLength l => st_set_length l
  | VAdd xs => st_add xs | VSub xs => st_sub xs | VIdiv k => st_idiv k
  end.
(** the same calls on values *)
Definition vec_call_val {T} {N : Num T} (c : vec_call) (v : vec T) : res (vec T) :=
  match c with
  | VSetPolar r a => Vector2D_set_polar v r a | VSetDir a => Vector2D_set_dir v a | VRotate a => Vector2D_rotate v a | VSetLength l => Vector2D_set_length v l
  | VAdd [VVec o] => Ok (Vector2D_iadd v o) | VAdd [VNum x; VNum y] => Ok (Vector2D_iadd v (V x y)) | VAdd [_; _] => Raise TypeError | VAdd _ => Raise GenericException
  | VSub [VVec o] => Ok (Vector2D_isub v o) | VSub [VNum x; VNum y] => Ok (Vector2D_isub v (V x y)) | VSub [_; _] => Raise TypeError | VSub [_] => Raise AttributeError | VSub _ => Raise GenericException
  | VIdiv k => Vector2D_idiv v k
  end.
Definition not_number {T} (x : val T) : Prop := match x with VNum _ => False | _ => True end.

(** C193: a call that returns leaves the vector the value-level model says; one that raises raises what it says. *)
Theorem C193_vector_agrees : forall (T : Type) (N : Num T) (c : vec_call) (v : vec T),
  match st_vec c v with
  | (Ok _, v') => vec_call_val c v = Ok v'
  | (Raise e, _) => vec_call_val c v = Raise e
  end.
Proof.
  intros T N c v. destruct c as [r a|a|a|l|xs|xs|k]; cbn [st_vec vec_call_val].
  - unfold st_set_polar, Vector2D_set_polar, andthen, eval, write. destruct (to_angle a) as [b|e]; [|reflexivity]. cbn [bind]. destruct (AngleDeg_cos b) as [c|e]; [|reflexivity]. cbn [bind]. now destruct (AngleDeg_sin b).
  - unfold st_set_dir, Vector2D_set_dir, andthen, eval, write, self. destruct (to_angle a) as [b|e]; [|reflexivity]. cbn [bind]. destruct (Vector2D_r v) as [q|e]; [|reflexivity]. cbn [bind]. destruct (AngleDeg_cos b) as [c|e]; [|reflexivity]. cbn [bind]. now destruct (AngleDeg_sin b).
  - unfold st_rotate, Vector2D_rotate, andthen, eval, write. destruct (ang_num a) as [d|e]; [|reflexivity]. cbn [bind]. destruct (ncos _) as [c|e]; [|reflexivity]. cbn [bind]. now destruct (nsin _).
  - unfold st_set_length, Vector2D_set_length, andthen, eval, write, self. destruct (Vector2D_r v) as [q|e]; [|reflexivity]. cbn [bind]. destruct (q >? EPSILON)%num; [|reflexivity]. now destruct (ndiv l q).
  - destruct xs as [|x [|y [|z t]]]; [reflexivity| | |now destruct x, y]; [now destruct x|]. destruct x, y; reflexivity.
  - destruct xs as [|x [|y [|z t]]]; [reflexivity| | |now destruct x, y]; [now destruct x|]. destruct x, y; reflexivity.
  - unfold st_idiv, Vector2D_idiv, andthen, eval, write, self. destruct (ndiv (vx v) k) as [x|e]; [|reflexivity]. cbn [bind vy]. now destruct (ndiv (vy v) k).
Qed.

(** What [C193_vector] needs of the numbers: a number whose cosine can be taken has a sine, and a division fails
    because of the divisor. *)
Definition regular {T} (N : Num T) : Prop :=
  (forall x c, ncos x = Ok c -> exists s, nsin x = Ok s) /\ (forall x y k q, ndiv x k = Ok q -> exists q', ndiv y k = Ok q').
Lemma regular_R : regular NumR.
Proof.
  split; [intros x c _; cbn [nsin NumR]; eauto|]. intros x y k q. cbn [ndiv NumR]. unfold Rdiv_py. destruct (Req_bool k 0); [discriminate|eauto].
Qed.
Lemma regular_F L : trig_sane L -> trig_inf L -> regular (NumF L).
Proof.
  intros S I. split.
  - intros x c H. cbn [nsin ncos NumF] in *. destruct x as [s|s| |s m e B].
    + apply ret_math1; [reflexivity|]. intros _. now apply S.
    + exfalso. unfold F_math1 in H. destruct (I s) as (_ & I2 & _). rewrite I2 in H. discriminate.
    + apply ret_math1; [reflexivity|]. discriminate.
    + apply ret_math1; [reflexivity|]. intros _. now apply S.
  - intros x y k q. cbn [ndiv NumF]. unfold F_div. destruct (F_is_zero k); [discriminate|eauto].
Qed.
Lemma vector_unchanged {T} {N : Num T} (c : vec_call) (v v' : vec T) e : regular N -> st_vec c v = (Raise e, v') ->
  v' = v \/ exists x bad, not_number bad /\ e = TypeError /\
    ((c = VAdd [VNum x; bad] /\ v' = mkVec (nadd (vx v) x) (vy v) (v_valid v)) \/ (c = VSub [VNum x; bad] /\ v' = mkVec (nsub (vx v) x) (vy v) (v_valid v))).
Proof.
  intros [SC DV]. destruct c as [r a|a|a|l|xs|xs|k]; cbn [st_vec].
  - unfold st_set_polar, andthen, eval, write. destruct (to_angle a) as [b|e']; [|intros [= _ <-]; now left]. destruct (AngleDeg_cos b) as [c|e'] eqn:C; [|intros [= _ <-]; now left].
    unfold AngleDeg_sin. destruct (SC _ _ C) as [s ->]. discriminate.
  - unfold st_set_dir, andthen, eval, write, self. destruct (to_angle a) as [b|e']; [|intros [= _ <-]; now left]. destruct (Vector2D_r v) as [q|e']; [|intros [= _ <-]; now left]. destruct (AngleDeg_cos b) as [c|e'] eqn:C; [|intros [= _ <-]; now left].
    unfold AngleDeg_sin. destruct (SC _ _ C) as [s ->]. discriminate.
  - unfold st_rotate, andthen, eval, write. destruct (ang_num a) as [d|e']; [|intros [= _ <-]; now left]. destruct (ncos _) as [c|e']; [|intros [= _ <-]; now left]. destruct (nsin _) as [s|e']; [discriminate|intros [= _ <-]; now left].
  - unfold st_set_length, andthen, eval, write, self. destruct (Vector2D_r v) as [q|e']; [|intros [= _ <-]; now left]. destruct (q >? EPSILON)%num; [|discriminate]. destruct (ndiv l q); [discriminate|intros [= _ <-]; now left].
  - destruct xs as [|x [|y [|z t]]]; [intros [= _ <-]; now left| | |destruct x, y; intros [= _ <-]; now left]; [destruct x; try (intros [= _ <-]; now left); discriminate|].
    destruct x; try (destruct y; intros [= _ <-]; now left). destruct y; try discriminate; (intros [= <- <-]; right; eexists; eexists; split; [|split; [reflexivity|left; split; reflexivity]]; exact Logic.I).
  - destruct xs as [|x [|y [|z t]]]; [intros [= _ <-]; now left| | |destruct x, y; intros [= _ <-]; now left]; [destruct x; try (intros [= _ <-]; now left); discriminate|].
    destruct x; try (destruct y; intros [= _ <-]; now left). destruct y; try discriminate; (intros [= <- <-]; right; eexists; eexists; split; [|split; [reflexivity|right; split; reflexivity]]; exact Logic.I).
  - unfold st_idiv, andthen, eval, write, self. destruct (ndiv (vx v) k) as [x|e'] eqn:D; [|intros [= _ <-]; now left]. cbn [vy]. destruct (DV _ (vy v) _ _ D) as [q ->]. discriminate.
Qed.

(** C193: a vector call that raises leaves the vector exactly as it was, except add(x, other) and sub(x, other) where
    other is not a number: there x has already been added to (subtracted from) the first coordinate. *)
Theorem C193_vector_R : forall (c : vec_call) (v v' : vec R) e, st_vec c v = (Raise e, v') ->
  v' = v \/ exists x bad, not_number bad /\ e = TypeError /\
    ((c = VAdd [VNum x; bad] /\ v' = mkVec (vx v + x) (vy v) (v_valid v)) \/ (c = VSub [VNum x; bad] /\ v' = mkVec (vx v - x) (vy v) (v_valid v))).
Proof. intros c v v' e H. apply (vector_unchanged c v v' e regular_R H). Qed.
Theorem C193_vector_F : forall (L : libm) (c : vec_call) (v v' : vec F) e, trig_sane L -> trig_inf L -> @st_vec F (NumF L) c v = (Raise e, v') ->
  v' = v \/ exists x bad, not_number bad /\ e = TypeError /\
    ((c = VAdd [VNum x; bad] /\ v' = mkVec (Bplus mode_NE (vx v) x) (vy v) (v_valid v)) \/ (c = VSub [VNum x; bad] /\ v' = mkVec (Bminus mode_NE (vx v) x) (vy v) (v_valid v))).
Proof. intros L c v v' e S I H. apply (vector_unchanged c v v' e (regular_F L S I) H). Qed.
(** C193: and add(x, other), sub(x, other) do move the first coordinate before they raise, in any arithmetic: calling
    again with the argument put right moves it twice. *)
Theorem C193_add_moves_x_refuted : forall (T : Type) (N : Num T) (v : vec T) (x y : T) (bad : val T), not_number bad ->
  st_vec (VAdd [VNum x; bad]) v = (Raise TypeError, mkVec (nadd (vx v) x) (vy v) (v_valid v)) /\
  st_vec (VSub [VNum x; bad]) v = (Raise TypeError, mkVec (nsub (vx v) x) (vy v) (v_valid v)) /\
  caught (st_vec (VAdd [VNum x; VNum y])) (caught (st_vec (VAdd [VNum x; bad])) v) = mkVec (nadd (nadd (vx v) x) x) (nadd (vy v) y) (v_valid v).
Proof. intros T N v x y bad B. destruct bad; destruct B; repeat split; reflexivity. Qed.
Lemma libm_inf_sane : trig_sane libm_inf.
Proof.
  destruct libm_round_trig_sane as [A B]. split; [|exact B]. intros x Fx. assert (E : F_is_inf x = false) by (destruct x; try reflexivity; discriminate). cbn [lm_sin lm_cos libm_inf]. unfold at_inf. rewrite E. exact (A x Fx).
Qed.
Example C193_vector_nonvacuous : trig_sane libm_inf /\ trig_inf libm_inf /\
  @st_vec F (NumF libm_inf) (VRotate (AA (mkAngle (B754_infinity false)))) (V (F_of_Z 3) (F_of_Z 4)) = (Raise ValueError, V (F_of_Z 3) (F_of_Z 4)) /\
  not_number (VVec (V 1 2)).
Proof. split; [exact libm_inf_sane|]. split; [exact libm_inf_ok|]. split; [reflexivity|exact Logic.I]. Qed.

(** ** Segments, triangles, sizes, rectangles, circles, sectors: any arithmetic *)
(** the point that the first arguments name *)
Definition first_point {T} {N : Num T} (args : list (val T)) : option (vec T) :=
  match args with
  | [VVec p; _] | [VVec p; _; _] => Some (V (vx p) (vy p))
  | [VNum x; VNum y; _; _] => Some (V x y)
  | _ => None
  end.
Definition origin0 {T} {N : Num T} : vec T := V (nlit 0 1) (nlit 0 1).
(** C193: Segment2D.assign that raises: nothing is left of the old segment.  The end is at (0,0); the start is the
    point the first arguments name, or (0,0) when they name none. *)
Theorem C193_segment : forall (T : Type) (N : Num T) (args : list (val T)) (s : seg T),
  match st_seg_assign args s with
  | (Ok _, s') => Segment2D_init args = Ok s'
  | (Raise e, s') => Segment2D_init args = Raise e /\ s_terminal s' = origin0 /\
      s_origin s' = match first_point args with Some p => p | None => origin0 end
  end.
Proof.
  intros T N args s. destruct args as [|a [|b [|c [|d [|e t]]]]].
  - reflexivity.
  - destruct a; repeat split; reflexivity.
  - destruct a; try (destruct b; repeat split; reflexivity).
  - destruct a; try (repeat split; reflexivity); destruct b; try (repeat split; reflexivity); destruct c; try (repeat split; reflexivity).
    + unfold st_seg_assign, set_s_origin, set_s_terminal, andthen, eval, write. cbn [Vector2D_init polar_end Segment2D_init]. unfold Segment2D_of_polar. destruct (Vector2D_from_polar _ _); cbn [bind]; repeat split; reflexivity.
    + unfold st_seg_assign, set_s_origin, set_s_terminal, andthen, eval, write. cbn [Vector2D_init polar_end Segment2D_init]. unfold Segment2D_of_polar. destruct (Vector2D_from_polar _ _); cbn [bind]; repeat split; reflexivity.
  - destruct a; try (repeat split; reflexivity); destruct b; try (repeat split; reflexivity); destruct c; try (repeat split; reflexivity); destruct d; repeat split; reflexivity.
  - destruct a; try (repeat split; reflexivity); destruct b; try (repeat split; reflexivity); destruct c; try (repeat split; reflexivity); destruct d; repeat split; reflexivity.
Qed.
Example C193_segment_nonvacuous : forall bad : val R, (forall p, bad <> VVec p) -> exists e s', st_seg_assign [VVec (V 1 2); bad] (mkSeg (V 5 6) (V 7 8)) = (Raise e, s') /\ s_origin s' = V 1 2 /\ s_terminal s' = V 0 0.
Proof. intros bad B. destruct bad; try (exfalso; eapply B; reflexivity); (eexists; eexists; repeat split; reflexivity). Qed.

(** how many corners the arguments of Triangle2D.assign name before the first that is unusable *)
Definition corners {T} {N : Num T} (args : list (val T)) : list (vec T) :=
  match args with
  | [VVec a; VVec b; _] => [V (vx a) (vy a); V (vx b) (vy b)]
  | [VVec a; _; _] => [V (vx a) (vy a)]
  | [VSeg s; _] => [V (vx (s_origin s)) (vy (s_origin s)); V (vx (s_terminal s)) (vy (s_terminal s))]
  | _ => []
  end.
(** C193: Triangle2D.assign that raises: the corners named before the argument that fails are the new ones, the
    others the old ones. *)
Theorem C193_triangle : forall (T : Type) (N : Num T) (args : list (val T)) (t : triangle T),
  match st_tri_assign args t with
  | (Ok _, t') => Triangle2D_init args = Ok t'
  | (Raise e, t') => Triangle2D_init args = Raise e /\
      [t_a t'; t_b t'; t_c t'] = corners args ++ skipn (List.length (corners args)) [t_a t; t_b t; t_c t]
  end.
Proof.
  intros T N args t. destruct t as [ta tb tc]. destruct args as [|a [|b [|c [|d q]]]]; try (repeat split; reflexivity).
  - destruct a; repeat split; reflexivity.
  - destruct a; try (destruct b; repeat split; reflexivity).
  - destruct a; try (repeat split; reflexivity); destruct b; try (repeat split; reflexivity); destruct c; repeat split; reflexivity.
  - destruct a; try (repeat split; reflexivity); destruct b; try (repeat split; reflexivity); destruct c; repeat split; reflexivity.
Qed.
Example C193_triangle_nonvacuous : exists e t', st_tri_assign [VVec (V 1 2); VNum 3; VVec (V 4 5)] (mkTri (V 0 0) (V 1 0) (V 0 1)) = (Raise e, t') /\ t' = mkTri (V 1 2) (V 1 0) (V 0 1).
Proof. eexists; eexists; split; reflexivity. Qed.

(** C193: Size2D.assign and Rect2D.set_size: a length that is unusable changes nothing; a width that is unusable leaves
    the new length beside the old width. *)
Theorem C193_size : forall (T : Type) (N : Num T) (l w : val T) (s : size T),
  match st_size_assign l w s with
  | (Ok _, s') => Size2D_of_args l w = Ok s'
  | (Raise e, s') => Size2D_of_args l w = Raise e /\
      sz_width s' = sz_width s /\
      sz_length s' = match fabs_arg l with Ok x => x | Raise _ => sz_length s end
  end.
Proof.
  intros T N l w s. unfold st_size_assign, Size2D_of_args, andthen, eval, write. destruct (fabs_arg l) as [x|e]; cbn [bind]; [|repeat split; reflexivity]. destruct (fabs_arg w); repeat split; reflexivity.
Qed.
(** the rectangle that the arguments of Rect2D.assign describe, on values *)
Definition rect_assign_val {T} {N : Num T} (args : rect_args) (r : rect T) : res (rect T) :=
  match args with
  | RA4 x y l w => s <- Size2D_of_args (VNum x) w ;; Ok (mkRect (Vector2D_assign (r_top_left r) x y) s (r_is_valid r))
  | RA3 (VVec p) l w => s <- Size2D_of_args l w ;; Ok (mkRect (Vector2D_of_vec p) s (r_is_valid r))
  | RA2corners (VVec p) q => Ok (Rect2D_assign_corners r p q)
  | RA2size (VVec p) s => Ok (Rect2D_assign_vec_size r p s)
  | RA1 (VRect o) => Ok (Rect2D_assign_rect r o)
  | _ => Raise GenericException
  end%py.
(** C193: Rect2D.assign that raises.  With an unusable first argument, or an argument list it does not know, the
    rectangle is unchanged.  With an unusable width or length the corner has already moved, and the length is the new
    one if only the width was unusable (in the four-number form the length set is the x coordinate). *)
Theorem C193_rect : forall (T : Type) (N : Num T) (args : rect_args) (r : rect T),
  match st_rect_assign args r with
  | (Ok _, r') => rect_assign_val args r = Ok r'
  | (Raise e, r') => rect_assign_val args r = Raise e /\ r_is_valid r' = r_is_valid r /\
      match args with
      | RA4 x y l w => vx (r_top_left r') = x /\ vy (r_top_left r') = y /\ r_size r' = mkSize (nabs x) (sz_width (r_size r))
      | RA3 (VVec p) l w => r_top_left r' = V (vx p) (vy p) /\ sz_width (r_size r') = sz_width (r_size r) /\
          sz_length (r_size r') = match fabs_arg l with Ok x => x | Raise _ => sz_length (r_size r) end
      | _ => r' = r
      end
  end.
Proof.
  intros T N args r. destruct r as [tl [sl sw] va]. destruct args as [x y l w|tl' l w|tl' br|tl' s|x| |]; try (repeat split; reflexivity).
  - unfold st_rect_assign, rect_assign_val, on_size, st_size_assign, Size2D_of_args, set_top_left_field, andthen, eval, write. cbn [fabs_arg bind r_size sz_length sz_width r_top_left r_is_valid]. destruct (fabs_arg w); cbn [bind]; repeat split; reflexivity.
  - unfold st_rect_assign, rect_assign_val, on_size, st_size_assign, Size2D_of_args, set_top_left_field, andthen, eval, write. destruct tl'; cbn [Vector2D_init]; try (repeat split; reflexivity).
    cbn [r_size]. destruct (fabs_arg l) as [x|e]; cbn [bind]; [|repeat split; reflexivity]. destruct (fabs_arg w); cbn [bind]; repeat split; reflexivity.
  - unfold st_rect_assign, rect_assign_val, Rect2D_assign_corners, on_size, set_top_left_field, andthen, eval, write. destruct tl'; cbn [Vector2D_init]; try (repeat split; reflexivity).
    unfold two_corner_fields, Vector2D_of_vec, V. cbn [vx vy]. repeat match goal with |- context [if ?b then _ else _] => destruct b end; reflexivity.
  - destruct tl'; repeat split; reflexivity.
  - destruct x; repeat split; reflexivity.
Qed.
Theorem C193_rect_set_size : forall (T : Type) (N : Num T) (args : list (val T)) (r r' : rect T) e, st_rect_set_size args r = (Raise e, r') ->
  r_top_left r' = r_top_left r /\ r_is_valid r' = r_is_valid r /\ sz_width (r_size r') = sz_width (r_size r) /\
  (sz_length (r_size r') = sz_length (r_size r) \/ exists l w x, args = [l; w] /\ fabs_arg l = Ok x /\ sz_length (r_size r') = x /\ fabs_arg w = Raise e).
Proof.
  intros T N args r r' e. destruct r as [tl [sl sw] va]. destruct args as [|l [|w [|z q]]].
  - intros [= _ <-]. repeat split. now left.
  - destruct l; try (intros [= _ <-]; repeat split; now left).
  - unfold st_rect_set_size, on_size, st_size_assign, andthen, eval, write. assert (EQ : forall A (x : A), match l with VSize _ => x | _ => x end = x) by (now destruct l); rewrite ?EQ; clear EQ; cbn [r_size]; (match goal with |- context [fabs_arg l] => destruct (fabs_arg l) as [?|e'] eqn:E end; [|intros [= _ <-]; repeat split; now left]); (destruct (fabs_arg w) as [?|e''] eqn:E2; [discriminate|]); (intros [= <- <-]; repeat split; right; eexists; eexists; eexists; repeat split; eassumption).
  - destruct l; intros [= _ <-]; repeat split; now left.
Qed.
Example C193_rect_nonvacuous : exists e r', st_rect_assign (RA4 1 2 (VNum 3) (VVec (V 0 0))) (mkRect (V 9 9) (mkSize 5 6) true) = (Raise e, r') /\ r' = mkRect (V 1 2) (mkSize (Rabs 1) 6) true.
Proof. eexists; eexists; split; reflexivity. Qed.

(** C193: Circle2D.assign is all or nothing.  Sector2D.assign with a bad center changes nothing; with a bad angle
    the center and radii are already new, and the start angle too when only the end angle is bad. *)
Theorem C193_circle : forall (T : Type) (N : Num T) (center : val T) (radius : T) (c : circle T),
  match st_circle_assign center radius c with
  | (Ok _, c') => exists p, center = VVec p /\ c' = Circle2D_assign c p radius
  | (Raise e, c') => e = GenericException /\ c' = c /\ forall p, center <> VVec p
  end.
Proof.
  intros T N center radius c. destruct center; try (repeat split; discriminate). unfold st_circle_assign, andthen, eval, write, done. cbn [Vector2D_init c_center c_radius]. destruct (radius <? num 0)%num eqn:E; (eexists; split; [reflexivity|]; unfold Circle2D_assign; cbn [c_center c_radius]; now rewrite E).
Qed.
Theorem C193_sector : forall (T : Type) (N : Num T) (center : val T) (min_r max_r : T) (start end_ : ang_arg T) (s : sector T),
  match st_sector_assign center min_r max_r start end_ s with
  | (Ok _, s') => exists p, center = VVec p /\ Sector2D_init p min_r max_r start end_ = Ok s'
  | (Raise e, s') =>
      (e = GenericException /\ s' = s /\ forall p, center <> VVec p) \/
      exists p, center = VVec p /\ sec_center s' = V (vx p) (vy p) /\ sec_min_r s' = nmin (nlit 0 1) min_r /\ sec_max_r s' = nmax min_r max_r /\ sec_end s' = sec_end s /\
        (AngleDeg_of_arg start = Raise e /\ sec_start s' = sec_start s \/ AngleDeg_of_arg end_ = Raise e /\ AngleDeg_of_arg start = Ok (sec_start s'))
  end.
Proof.
  intros T N center min_r max_r start end_ s. destruct center; try (left; repeat split; discriminate). unfold st_sector_assign, Sector2D_init, andthen, eval, write. cbn [Vector2D_init].
  destruct (AngleDeg_of_arg start) as [a|e] eqn:E1; [|right; eexists; repeat split; try reflexivity; left; now split]. cbn [bind]. destruct (AngleDeg_of_arg end_) as [b|e] eqn:E2; [|right; eexists; repeat split; try reflexivity; right; now split].
  cbn [bind]. eexists. split; reflexivity.
Qed.
Example C193_sector_nonvacuous : exists e s', @st_sector_assign F (NumF libm_inf) (VVec (V (F_of_Z 1) (F_of_Z 2))) (F_of_Z 0) (F_of_Z 5) (AN (F_of_Z 30)) (AN (B754_infinity false)) (mkSector (V (F_of_Z 0) (F_of_Z 0)) (F_of_Z 0) (F_of_Z 1) (mkAngle (F_of_Z 10)) (mkAngle (F_of_Z 20))) = (Raise e, s') /\
  a_degree (sec_end s') = F_of_Z 20.
Proof. eexists; eexists; split; reflexivity. Qed.
