(** * P_Text: what printing shows (C129), what to_str leaves (C130), hashing
    vectors and sets of vectors (C131) *)
From Coq Require Import ZArith List Bool String Ascii Reals Lra Lia DecimalString DecimalZ.
From Flocq Require Import Core BinarySingleNaN.
From Verif Require Import Base Types NumR NumF M_Angle M_Vector M_Circle M_Rect M_Hull M_Text.
Import ListNotations.
Local Open Scope string_scope.

(** ** Specification: what is assumed of CPython's str() of numbers
    Different numbers have different texts, and the texts use only the
    characters of number literals. *)
Definition num_char (c : ascii) : bool :=
  match c with
  | "0" | "1" | "2" | "3" | "4" | "5" | "6" | "7" | "8" | "9" | "." | "e" | "+" | "-" | "i" | "n" | "f" | "a" => true
  | _ => false
  end%char.
Fixpoint all_chars (P : ascii -> bool) (s : string) : bool :=
  match s with "" => true | String c s => P c && all_chars P s end.
Definition faithful {T} (pr : printer T) : Prop :=
  (forall x y, str_num pr x = str_num pr y -> x = y) /\ (forall x, all_chars num_char (str_num pr x) = true).

(** A printer of doubles that meets it: mantissa and exponent in decimal. *)
Definition dec (z : Z) : string := NilEmpty.string_of_int (Z.to_int z).
Definition str_F (x : F) : string :=
  match x with
  | B754_zero false => "0" | B754_zero true => "-0"
  | B754_infinity false => "inf" | B754_infinity true => "-inf"
  | B754_nan => "nan"
  | B754_finite s m e _ => dec (if s then Z.neg m else Z.pos m) ++ "e" ++ dec e
  end.

(** ** Decoding *)
Lemma app_assoc_s (a b c : string) : (a ++ b) ++ c = a ++ (b ++ c).
Proof. induction a as [|x a IH]; [reflexivity|]. cbn. now rewrite IH. Qed.
Lemma split_num a b c c' r r' : all_chars num_char a = true -> all_chars num_char b = true -> num_char c = false -> num_char c' = false ->
  a ++ String c r = b ++ String c' r' -> a = b /\ c = c' /\ r = r'.
Proof.
  revert b. induction a as [|x a IH]; intros [|y b] Ha Hb Hc Hc' E; cbn in *.
  - now injection E as -> ->.
  - injection E as -> E. apply andb_true_iff in Hb as [Hb _]. congruence.
  - injection E as -> E. apply andb_true_iff in Ha as [Ha _]. congruence.
  - injection E as -> E. apply andb_true_iff in Ha as [_ Ha]. apply andb_true_iff in Hb as [_ Hb]. destruct (IH b Ha Hb Hc Hc' E) as (-> & -> & ->). auto.
Qed.
Lemma app_inv_head_s (a b c : string) : a ++ b = a ++ c -> b = c.
Proof. induction a as [|x a IH]; [easy|]. cbn. intros E. injection E as E. auto. Qed.
Lemma app_nil_s (a : string) : a ++ "" = a.
Proof. induction a as [|x a IH]; [reflexivity|]. cbn. now rewrite IH. Qed.
Lemma all_app P a b : all_chars P (a ++ b) = all_chars P a && all_chars P b.
Proof. induction a as [|x a IH]; [reflexivity|]. cbn. now rewrite IH, andb_assoc. Qed.

Definition same_xy {T} (v w : vec T) : Prop := vx v = vx w /\ vy v = vy w.
Definition same_seg {T} (s t : seg T) : Prop := same_xy (s_origin s) (s_origin t) /\ same_xy (s_terminal s) (s_terminal t).

Lemma cons_inv c c' (a b : string) : String c a = String c' b -> c = c' /\ a = b.
Proof. intros E. now injection E as -> ->. Qed.
Lemma pre_inv (p a b : string) : p ++ a = p ++ b -> a = b.
Proof. apply app_inv_head_s. Qed.
Arguments Vector2D_repr : simpl never.
Arguments Segment2D_repr : simpl never.
Section Dec.
  Context {T : Type} `{Num T} (pr : printer T) (HF : faithful pr).
  Let inj := proj1 HF.
  Let chars := proj2 HF.

  Lemma dec_num x y c c' r r' : num_char c = false -> num_char c' = false -> str_num pr x ++ String c r = str_num pr y ++ String c' r' -> x = y /\ c = c' /\ r = r'.
  Proof. intros Hc Hc' E. apply split_num in E; try apply chars; try assumption. destruct E as (E & E2). split; [now apply inj|exact E2]. Qed.
  Lemma dec_vec v w r r' : Vector2D_repr pr v ++ r = Vector2D_repr pr w ++ r' -> same_xy v w /\ r = r'.
  Proof.
    unfold Vector2D_repr. rewrite !app_assoc_s. cbn [append]. intros E. apply cons_inv in E as [_ E]. apply dec_num in E as (E1 & _ & E); try reflexivity.
    apply dec_num in E as (E2 & _ & E); try reflexivity. split; [now split|exact E].
  Qed.
  Lemma dec_seg s t r r' : Segment2D_repr pr s ++ r = Segment2D_repr pr t ++ r' -> same_seg s t /\ r = r'.
  Proof.
    unfold Segment2D_repr. rewrite !app_assoc_s. intros E. apply pre_inv in E.
    apply dec_vec in E as (E1 & E). apply pre_inv in E. apply dec_vec in E as (E2 & E). apply pre_inv in E. split; [now split|exact E].
  Qed.
  Lemma vec_head v r : exists s, Vector2D_repr pr v ++ r = String "("%char s.
  Proof. eexists. reflexivity. Qed.
  Section L.
    Context {A : Type} (f : A -> string) (same : A -> A -> Prop) (c0 : ascii).
    Hypothesis D : forall a b r r', f a ++ r = f b ++ r' -> same a b /\ r = r'.
    Hypothesis Hd : forall a r, exists s, f a ++ r = String c0 s.
    Hypothesis N0 : c0 <> "]"%char.
    Lemma dec_items l l' r r' : items_repr f l ++ r = items_repr f l' ++ r' -> Forall2 same l l' /\ r = r'.
    Proof using D.
      revert l'. induction l as [|a l IH]; intros [|b l']; cbn [items_repr append]; intros E.
      - injection E as E. auto.
      - discriminate.
      - discriminate.
      - apply cons_inv in E as [_ E]. apply cons_inv in E as [_ E]. rewrite !app_assoc_s in E. apply D in E as [E1 E]. apply IH in E as [E2 E]. auto.
    Qed.
    Lemma dec_list l l' r r' : list_repr f l ++ r = list_repr f l' ++ r' -> Forall2 same l l' /\ r = r'.
    Proof using D Hd N0.
      destruct l as [|a l], l' as [|b l']; cbn [list_repr append]; intros E; apply cons_inv in E as [_ E].
      - apply cons_inv in E as [_ E]. auto.
      - exfalso. rewrite app_assoc_s in E. destruct (Hd b (items_repr f l' ++ r')) as (s & Es). rewrite Es in E. injection E as E _. now destruct N0.
      - exfalso. rewrite app_assoc_s in E. destruct (Hd a (items_repr f l ++ r)) as (s & Es). rewrite Es in E. injection E as E _. now destruct N0.
      - rewrite !app_assoc_s in E. apply D in E as [E1 E]. apply dec_items in E as [E2 E]. auto.
    Qed.
  End L.
End Dec.


(** ** C129: the text of an object determines its numbers *)
Section Iff.
  Context {T : Type} `{Num T} (pr : printer T) (HF : faithful pr).
  Lemma vec_congr v w : same_xy v w -> Vector2D_repr pr v = Vector2D_repr pr w.
  Proof. unfold Vector2D_repr. now intros [-> ->]. Qed.
  Lemma seg_congr s t : same_seg s t -> Segment2D_repr pr s = Segment2D_repr pr t.
  Proof. unfold Segment2D_repr. intros [H1 H2]. now rewrite (vec_congr _ _ H1), (vec_congr _ _ H2). Qed.
  Lemma list_congr {A} (f : A -> string) (P : A -> A -> Prop) : (forall a b, P a b -> f a = f b) -> forall l m, Forall2 P l m -> list_repr f l = list_repr f m.
  Proof.
    intros HP l m HL. assert (HI : forall l m, Forall2 P l m -> items_repr f l = items_repr f m) by (induction 1 as [|a b l0 m0 K _ IH]; [reflexivity|]; cbn; now rewrite (HP _ _ K), IH).
    destruct HL as [|a b l m K HL]; [reflexivity|]. cbn. now rewrite (HP _ _ K), (HI _ _ HL).
  Qed.
  Lemma vec_iff v w : Vector2D_repr pr v = Vector2D_repr pr w <-> same_xy v w.
  Proof. split; [|apply vec_congr]. intros E. rewrite <- (app_nil_s (Vector2D_repr pr v)), <- (app_nil_s (Vector2D_repr pr w)) in E. now apply (dec_vec pr HF) in E as [E _]. Qed.
  Lemma seg_iff v w : Segment2D_repr pr v = Segment2D_repr pr w <-> same_seg v w.
  Proof. split; [|apply seg_congr]. intros E. rewrite <- (app_nil_s (Segment2D_repr pr v)), <- (app_nil_s (Segment2D_repr pr w)) in E. now apply (dec_seg pr HF) in E as [E _]. Qed.
  Lemma size_iff s t : Size2D_repr pr s = Size2D_repr pr t <-> s = t.
  Proof.
    split; [|now intros ->]. unfold Size2D_repr. intros E. apply pre_inv in E. cbn [append] in E. apply (dec_num pr HF) in E as (E1 & _ & E); try reflexivity.
    do 4 apply cons_inv in E as [_ E]. apply (dec_num pr HF) in E as (E2 & _); try reflexivity. destruct s, t; cbn in *; congruence.
  Qed.
  Lemma tri_iff s t : Triangle2D_repr pr s = Triangle2D_repr pr t <-> same_xy (t_a s) (t_a t) /\ same_xy (t_b s) (t_b t) /\ same_xy (t_c s) (t_c t).
  Proof.
    unfold Triangle2D_repr. split.
    - intros E. apply pre_inv in E. apply (dec_vec pr HF) in E as (E1 & E). apply pre_inv in E. apply (dec_vec pr HF) in E as (E2 & E). apply pre_inv in E. apply (dec_vec pr HF) in E as (E3 & E). auto.
    - intros (H1 & H2 & H3). now rewrite (vec_congr _ _ H1), (vec_congr _ _ H2), (vec_congr _ _ H3).
  Qed.
  Lemma circle_iff c d : Circle2D_repr pr c = Circle2D_repr pr d <-> same_xy (c_center c) (c_center d) /\ c_radius c = c_radius d.
  Proof.
    unfold Circle2D_repr. split.
    - intros E. apply pre_inv in E. apply (dec_vec pr HF) in E as (E1 & E). apply pre_inv in E. apply (dec_num pr HF) in E as (E2 & E); try reflexivity. auto.
    - intros (H1 & ->). now rewrite (vec_congr _ _ H1).
  Qed.
  Lemma rect_iff r s : Rect2D_repr pr r = Rect2D_repr pr s <-> same_xy (r_top_left r) (r_top_left s) /\ r_size r = r_size s.
  Proof.
    unfold Rect2D_repr. split.
    - intros E. apply pre_inv in E. apply (dec_vec pr HF) in E as (E1 & E). apply pre_inv in E. cbn [append] in E. apply (dec_num pr HF) in E as (E2 & _ & E); try reflexivity.
      do 4 apply cons_inv in E as [_ E]. apply (dec_num pr HF) in E as (E3 & _); try reflexivity. split; [exact E1|]. destruct (r_size r), (r_size s); cbn in *; congruence.
    - intros (H1 & ->). now rewrite (vec_congr _ _ H1).
  Qed.
  Lemma line_iff l m : Line2D_repr pr l = Line2D_repr pr m <->
     l_a l = l_a m /\ l_b l = l_b m /\ (l_c l = l_c m \/ neqb (l_c l) (num 0) = true /\ neqb (l_c m) (num 0) = true).
  Proof.
    unfold Line2D_repr. split.
    - destruct (neqb (l_c l) (num 0)) eqn:C1, (neqb (l_c m) (num 0)) eqn:C2; intros E; apply pre_inv in E; cbn [append] in E;
        apply (dec_num pr HF) in E as (E1 & _ & E); try reflexivity; do 4 apply cons_inv in E as [_ E]; apply (dec_num pr HF) in E as (E2 & _ & E); try reflexivity; (split; [exact E1|]; split; [exact E2|]).
      + auto.
      + exfalso. discriminate.
      + exfalso. discriminate.
      + do 4 apply cons_inv in E as [_ E]. apply (dec_num pr HF) in E as (E3 & _); try reflexivity. auto.
    - intros (-> & -> & [-> | [-> ->]]); reflexivity.
  Qed.
  Lemma mat_iff m n : Matrix2D_repr pr m = Matrix2D_repr pr n <-> m = n.
  Proof.
    split; [|now intros ->]. unfold Matrix2D_repr. cbn [list_repr items_repr]. intros E. apply cons_inv in E as [_ E]. cbn [append] in E.
    do 5 (apply (dec_num pr HF) in E as (? & _ & E); [|reflexivity|reflexivity]; apply cons_inv in E as [_ E]).
    apply (dec_num pr HF) in E as (? & _ & _); [|reflexivity|reflexivity]. destruct m, n; cbn in *; congruence.
  Qed.
  Lemma poly_iff p q : Polygon2D_repr pr p = Polygon2D_repr pr q <-> Forall2 same_xy p q.
  Proof.
    unfold Polygon2D_repr. split.
    - intros E. apply pre_inv in E. apply (dec_list (Vector2D_repr pr) same_xy "("%char) in E as [E _]; [exact E|apply (dec_vec pr HF)|intros; apply (vec_head pr)|discriminate].
    - intros HL. f_equal. f_equal. revert HL. apply list_congr. apply vec_congr.
  Qed.
  Lemma hull_iff h k : ConvexHull_repr pr h = ConvexHull_repr pr k <-> Forall2 same_xy (hull_vertices h) (hull_vertices k) /\ Forall2 same_seg (h_edges h) (h_edges k).
  Proof.
    unfold ConvexHull_repr. split.
    - intros E. apply pre_inv in E. apply (dec_list (Vector2D_repr pr) same_xy "("%char) in E as [E1 E]; [|apply (dec_vec pr HF)|intros; apply (vec_head pr)|discriminate]. apply pre_inv in E.
      apply (dec_list (Segment2D_repr pr) same_seg "["%char) in E as [E2 _]; [now split|apply (dec_seg pr HF)|intros; eexists; reflexivity|discriminate].
    - intros [H1 H2]. now rewrite (list_congr _ _ vec_congr _ _ H1), (list_congr _ _ seg_congr _ _ H2).
  Qed.
End Iff.
Theorem C129_repr_identifies : forall (T : Type) (N : Num T) (pr : printer T), faithful pr ->
  (forall v w, Vector2D_repr pr v = Vector2D_repr pr w <-> same_xy v w) /\
  (forall s t, Size2D_repr pr s = Size2D_repr pr t <-> s = t) /\
  (forall s t, Segment2D_repr pr s = Segment2D_repr pr t <-> same_seg s t) /\
  (forall s t, Triangle2D_repr pr s = Triangle2D_repr pr t <-> same_xy (t_a s) (t_a t) /\ same_xy (t_b s) (t_b t) /\ same_xy (t_c s) (t_c t)) /\
  (forall c d, Circle2D_repr pr c = Circle2D_repr pr d <-> same_xy (c_center c) (c_center d) /\ c_radius c = c_radius d) /\
  (forall r s, Rect2D_repr pr r = Rect2D_repr pr s <-> same_xy (r_top_left r) (r_top_left s) /\ r_size r = r_size s) /\
  (forall l m, Line2D_repr pr l = Line2D_repr pr m <->
     l_a l = l_a m /\ l_b l = l_b m /\ (l_c l = l_c m \/ neqb (l_c l) (num 0) = true /\ neqb (l_c m) (num 0) = true)) /\
  (forall m n, Matrix2D_repr pr m = Matrix2D_repr pr n <-> m = n) /\
  (forall p q, Polygon2D_repr pr p = Polygon2D_repr pr q <-> Forall2 same_xy p q) /\
  (forall h k, ConvexHull_repr pr h = ConvexHull_repr pr k <-> Forall2 same_xy (hull_vertices h) (hull_vertices k) /\ Forall2 same_seg (h_edges h) (h_edges k)).
Proof.
  intros T N pr HF. repeat match goal with |- _ /\ _ => split end; intros.
  - now apply vec_iff. - now apply size_iff. - now apply seg_iff. - now apply tri_iff. - now apply circle_iff. - now apply rect_iff. - now apply line_iff. - now apply mat_iff. - now apply poly_iff. - now apply hull_iff.
Qed.

Lemma ok_inv (u v : string) : Ok u = Ok v -> u = v.
Proof. now intros [= ->]. Qed.
(** Angles are printed by their normalised degree. *)
Theorem C129_repr_angles : forall (T : Type) (N : Num T) (pr : printer T), faithful pr ->
  (forall a b x y, AngleDeg_degree a = Ok x -> AngleDeg_degree b = Ok y -> (AngleDeg_repr pr a = AngleDeg_repr pr b <-> x = y)) /\
  (forall r s x y, AngleDeg_degree (ray_dir r) = Ok x -> AngleDeg_degree (ray_dir s) = Ok y ->
     (Ray2D_repr pr r = Ray2D_repr pr s <-> same_xy (ray_origin r) (ray_origin s) /\ x = y)) /\
  (forall r s x y x' y', AngleDeg_degree (sec_start r) = Ok x -> AngleDeg_degree (sec_end r) = Ok y -> AngleDeg_degree (sec_start s) = Ok x' -> AngleDeg_degree (sec_end s) = Ok y' ->
     (Sector2D_repr pr r = Sector2D_repr pr s <-> same_xy (sec_center r) (sec_center s) /\ x = x' /\ y = y' /\ sec_min_r r = sec_min_r s /\ sec_max_r r = sec_max_r s)) /\
  (forall a e, AngleDeg_degree a = Raise e -> AngleDeg_repr pr a = Raise e).
Proof.
  intros T N pr HF. split; [|split; [|split]].
  - intros a b x y Ea Eb. unfold AngleDeg_repr. rewrite Ea, Eb. cbn [bind]. split; [|now intros ->]. intros E. injection E as E. now apply HF.
  - intros r s x y Ea Eb. unfold Ray2D_repr, AngleDeg_repr. rewrite Ea, Eb. cbn [bind]. split.
    + intros E. apply ok_inv in E. apply (dec_vec pr HF) in E as [E1 E]. apply pre_inv in E. split; [exact E1|now apply HF].
    + intros [E ->]. now rewrite (vec_congr pr _ _ E).
  - intros r s x y x' y' Ea Eb Ec Ed. unfold Sector2D_repr, AngleDeg_repr. rewrite Ea, Eb, Ec, Ed. cbn [bind]. split.
    + intros E. apply ok_inv in E. apply pre_inv in E. apply (dec_vec pr HF) in E as [E1 E]. apply pre_inv in E. cbn [append] in E. apply (dec_num pr HF) in E as (E2 & _ & E); try reflexivity. apply cons_inv in E as [_ E].
      apply (dec_num pr HF) in E as (E3 & _ & E); try reflexivity. do 12 apply cons_inv in E as [_ E]. apply (dec_num pr HF) in E as (E4 & _ & E); try reflexivity. apply cons_inv in E as [_ E].
      apply (dec_num pr HF) in E as (E5 & _ & E); try reflexivity. auto.
    + intros (E & -> & -> & -> & ->). now rewrite (vec_congr pr _ _ E).
  - intros a e E. unfold AngleDeg_repr. now rewrite E.
Qed.

Lemma dec_inj a b : dec a = dec b -> a = b.
Proof.
  unfold dec. intros E. assert (K : forall z, NilEmpty.int_of_string (NilEmpty.string_of_int (Z.to_int z)) = Some (Z.to_int z)) by (intros; apply NilEmpty.isi).
  assert (K2 := K a). rewrite E, K in K2. injection K2 as K2. rewrite <- (DecimalZ.of_to a), <- (DecimalZ.of_to b). now rewrite K2.
Qed.
Definition dec_char (c : ascii) : bool :=
  match c with "0" | "1" | "2" | "3" | "4" | "5" | "6" | "7" | "8" | "9" | "-" => true | _ => false end%char.
Lemma dec_chars z : all_chars dec_char (dec z) = true.
Proof.
  assert (U : forall u, all_chars dec_char (NilEmpty.string_of_uint u) = true) by (induction u; cbn; auto).
  unfold dec. destruct (Z.to_int z); cbn; apply U.
Qed.
Lemma all_weak (P Q : ascii -> bool) s : (forall c, P c = true -> Q c = true) -> all_chars P s = true -> all_chars Q s = true.
Proof. intros HPQ. induction s as [|c s IH]; [easy|]. cbn. intros E. apply andb_true_iff in E as [E1 E2]. now rewrite (HPQ _ E1), IH. Qed.
Lemma split_e a b r r' : all_chars dec_char a = true -> all_chars dec_char b = true -> a ++ String "e" r = b ++ String "e" r' -> a = b /\ r = r'.
Proof.
  revert b. induction a as [|x a IH]; intros [|y b] Ha Hb E; cbn in *.
  - now injection E as ->.
  - injection E as <- E. discriminate.
  - injection E as -> E. discriminate.
  - injection E as -> E. apply andb_true_iff in Ha as [_ Ha]. apply andb_true_iff in Hb as [_ Hb]. destruct (IH b Ha Hb E) as (-> & ->). auto.
Qed.
Definition no_e (c : ascii) : bool := negb (Ascii.eqb c "e").
Lemma dec_no_e z : all_chars no_e (dec z) = true.
Proof. apply (all_weak dec_char); [|apply dec_chars]. intros c. unfold no_e. destruct (Ascii.eqb_spec c "e") as [->|]; [discriminate|reflexivity]. Qed.
Lemma str_F_e x : all_chars no_e (str_F x) = match x with B754_finite _ _ _ _ => false | _ => true end.
Proof. destruct x as [[]|[]| |s m e B]; try reflexivity. cbn [str_F]. rewrite all_app. cbn. now rewrite andb_false_r. Qed.
Lemma str_F_inj x y : str_F x = str_F y -> x = y.
Proof.
  intros E. assert (K := f_equal (all_chars no_e) E). rewrite !str_F_e in K.
  destruct x as [[]|[]| |s m e B], y as [[]|[]| |s' m' e' B']; try discriminate; try reflexivity; cbn [str_F] in E.
  change ("e" ++ dec e) with (String "e" (dec e)) in E. change ("e" ++ dec e') with (String "e" (dec e')) in E.
  apply split_e in E as [E1 E2]; try apply dec_chars. apply dec_inj in E1. apply dec_inj in E2. apply B2SF_inj. cbn. destruct s, s'; congruence.
Qed.
Example C129_nonvacuous : faithful (mkPrinter str_F (fun x => x)).
Proof.
  split; [exact str_F_inj|]. intros x. cbn [str_num]. assert (D : forall z, all_chars num_char (dec z) = true) by (intros z; apply (all_weak dec_char); [|apply dec_chars]; intros [[] [] [] [] [] [] [] []]; cbn; easy).
  destruct x as [[]|[]| |s m e B]; try reflexivity. cbn [str_F]. rewrite all_app. cbn. now rewrite !D.
Qed.
Example C129_text : Vector2D_repr (mkPrinter str_F (fun x => x)) (mkVec (F_of_Z 0) B754_nan true) = "(0,nan)".
Proof. vm_compute. reflexivity. Qed.

(** ** C129, second part: the texts read from left to right
    The words of a text are the pieces between brackets, commas, colons and
    blanks.  Every object prints its numbers in the documented order, each
    under its own name where there are names. *)
Definition delim (c : ascii) : bool := match c with "(" | ")" | "[" | "]" | "," | ":" | " " => true | _ => false end%char.
Definition flush (w : string) (l : list string) : list string := match w with "" => l | _ => w :: l end.
Fixpoint words_from (w s : string) : list string :=
  match s with
  | "" => flush w []
  | String c s => if delim c then flush w (words_from "" s) else words_from (w ++ String c "") s
  end.
Definition words (s : string) : list string := words_from "" s.
Definition plain {T} (pr : printer T) : Prop := forall x, str_num pr x <> "" /\ all_chars num_char (str_num pr x) = true.
Definition xy {T} (pr : printer T) (v : vec T) : list string := [str_num pr (vx v); str_num pr (vy v)].

Section Words.
  Context {T : Type} `{Num T} (pr : printer T) (HP : plain pr).
  Lemma words_num a : all_chars num_char a = true -> forall w r, words_from w (a ++ r) = words_from (w ++ a) r.
  Proof using Type.
    induction a as [|c a IH]; intros Ha w r; cbn [append]; [now rewrite app_nil_s|]. cbn [all_chars] in Ha. apply andb_true_iff in Ha as [Hc Ha]. cbn [words_from].
    assert (delim c = false) as ->. { destruct c as [[] [] [] [] [] [] [] []]; try reflexivity; discriminate. }
    rewrite IH by assumption. now rewrite app_assoc_s.
  Qed.
  Lemma words_str x c r : delim c = true -> words_from "" (str_num pr x ++ String c r) = str_num pr x :: words_from "" r.
  Proof using HP. intros D. destruct (HP x) as [N A]. rewrite words_num by assumption. cbn [append words_from]. rewrite D. destruct (str_num pr x); [easy|reflexivity]. Qed.
  Lemma words_end x : words_from "" (str_num pr x) = [str_num pr x].
  Proof using HP. destruct (HP x) as [N A]. rewrite <- (app_nil_s (str_num pr x)) at 1. rewrite words_num by assumption. cbn. destruct (str_num pr x); [easy|reflexivity]. Qed.
  Lemma words_vec v r : words_from "" (Vector2D_repr pr v ++ r) = (xy pr v ++ words_from "" r)%list.
  Proof using HP.
    unfold Vector2D_repr, xy. rewrite !app_assoc_s. cbn [append words_from delim flush]. rewrite words_str by reflexivity. now rewrite words_str by reflexivity.
  Qed.
  Definition seg_words (s : seg T) : list string := (xy pr (s_origin s) ++ xy pr (s_terminal s))%list.
  Lemma words_seg s r : words_from "" (Segment2D_repr pr s ++ r) = (seg_words s ++ words_from "" r)%list.
  Proof using HP.
    unfold Segment2D_repr, seg_words. rewrite !app_assoc_s. cbn [append words_from delim flush]. rewrite words_vec. cbn [append words_from delim flush]. rewrite words_vec. cbn [append words_from delim flush]. now rewrite <- app_assoc.
  Qed.
  Lemma words_list {A} (f : A -> string) (g : A -> list string) : (forall a r, words_from "" (f a ++ r) = (g a ++ words_from "" r)%list) ->
    forall l r, words_from "" (list_repr f l ++ r) = (flat_map g l ++ words_from "" r)%list.
  Proof using Type.
    intros Hf. assert (HI : forall l r, words_from "" (items_repr f l ++ r) = (flat_map g l ++ words_from "" r)%list).
    { induction l as [|a l IH]; intros r; cbn [items_repr append words_from delim flush flat_map]; [reflexivity|]. rewrite app_assoc_s, Hf, IH. now rewrite app_assoc. }
    intros [|a l] r; cbn [list_repr append words_from delim flush flat_map]; [reflexivity|]. rewrite app_assoc_s, Hf, HI. now rewrite app_assoc.
  Qed.
End Words.
Local Open Scope list_scope.
Theorem C129_words : forall (T : Type) (N : Num T) (pr : printer T), plain pr ->
  let n := str_num pr in
  (forall v, words (Vector2D_repr pr v) = [n (vx v); n (vy v)]) /\
  (forall s, words (Size2D_repr pr s) = ["len"; n (sz_length s); "wid"; n (sz_width s)]) /\
  (forall s, words (Segment2D_repr pr s) = xy pr (s_origin s) ++ xy pr (s_terminal s)) /\
  (forall t, words (Triangle2D_repr pr t) = xy pr (t_a t) ++ xy pr (t_b t) ++ xy pr (t_c t)) /\
  (forall c, words (Circle2D_repr pr c) = xy pr (c_center c) ++ [n (c_radius c)]) /\
  (forall r, words (Rect2D_repr pr r) = ["topleft"] ++ xy pr (r_top_left r) ++ ["len"; n (sz_length (r_size r)); "wid"; n (sz_width (r_size r))]) /\
  (forall l, words (Line2D_repr pr l) = [n (l_a l); "X"; "+"; n (l_b l); "Y"] ++ (if neqb (l_c l) (num 0) then [] else ["+"; n (l_c l)]) ++ ["="; "0"]) /\
  (forall m, words (Matrix2D_repr pr m) = [n (m11 m); n (m12 m); n (m21 m); n (m22 m); n (mdx m); n (mdy m)]) /\
  (forall vs, words (Polygon2D_repr pr vs) = flat_map (xy pr) vs) /\
  (forall h, words (ConvexHull_repr pr h) = flat_map (xy pr) (hull_vertices h) ++ flat_map (fun s => xy pr (s_origin s) ++ xy pr (s_terminal s)) (h_edges h)) /\
  (forall r d, AngleDeg_degree (ray_dir r) = Ok d -> exists t, Ray2D_repr pr r = Ok t /\ words t = xy pr (ray_origin r) ++ ["dir"; n d]) /\
  (forall s a b, AngleDeg_degree (sec_start s) = Ok a -> AngleDeg_degree (sec_end s) = Ok b ->
     exists t, Sector2D_repr pr s = Ok t /\ words t = ["v"] ++ xy pr (sec_center s) ++ ["a"; n a; n b; "r"; n (sec_min_r s); n (sec_max_r s)]).
Proof.
  intros T N pr HP n. unfold words.
  split; [|split; [|split; [|split; [|split; [|split; [|split; [|split; [|split; [|split; [|split]]]]]]]]]].
  - intros v. rewrite <- (app_nil_s (Vector2D_repr pr v)). now rewrite (words_vec pr HP).
  - intros s. unfold Size2D_repr. cbn [append words_from delim flush]. rewrite (words_str pr HP) by reflexivity. cbn [append words_from delim flush]. now rewrite (words_str pr HP) by reflexivity.
  - intros s. rewrite <- (app_nil_s (Segment2D_repr pr s)). rewrite (words_seg pr HP). apply app_nil_r.
  - intros t. unfold Triangle2D_repr. cbn [append words_from delim flush]. rewrite (words_vec pr HP). cbn [append words_from delim flush]. rewrite (words_vec pr HP). cbn [append words_from delim flush]. now rewrite (words_vec pr HP).
  - intros c. unfold Circle2D_repr. cbn [append words_from delim flush]. rewrite (words_vec pr HP). cbn [append words_from delim flush]. now rewrite (words_str pr HP) by reflexivity.
  - intros r. unfold Rect2D_repr. cbn [append words_from delim flush]. rewrite (words_vec pr HP). cbn [append words_from delim flush]. rewrite (words_str pr HP) by reflexivity. cbn [append words_from delim flush]. now rewrite (words_str pr HP) by reflexivity.
  - intros l. unfold Line2D_repr. destruct (neqb (l_c l) (num 0)); cbn [append words_from delim flush]; rewrite (words_str pr HP) by reflexivity; cbn [append words_from delim flush]; rewrite (words_str pr HP) by reflexivity; cbn [append words_from delim flush]; [reflexivity|].
    now rewrite (words_str pr HP) by reflexivity.
  - intros m. unfold Matrix2D_repr. cbn [list_repr items_repr append words_from delim flush]. do 6 (rewrite (words_str pr HP) by reflexivity; cbn [append words_from delim flush]). reflexivity.
  - intros vs. unfold Polygon2D_repr. cbn [append words_from delim flush]. rewrite (words_list _ (xy pr) (words_vec pr HP)). apply app_nil_r.
  - intros h. unfold ConvexHull_repr. cbn [append words_from delim flush]. rewrite (words_list _ (xy pr) (words_vec pr HP)). cbn [append words_from delim flush]. rewrite (words_list _ (seg_words pr) (words_seg pr HP)). cbn [append words_from delim flush]. now rewrite app_nil_r.
  - intros r d E. unfold Ray2D_repr, AngleDeg_repr. rewrite E. cbn [bind]. eexists. split; [reflexivity|]. rewrite (words_vec pr HP). cbn [append words_from delim flush]. now rewrite (words_end pr HP).
  - intros s a b E1 E2. unfold Sector2D_repr, AngleDeg_repr. rewrite E1, E2. cbn [bind]. eexists. split; [reflexivity|].
    cbn [append words_from delim flush]. rewrite (words_vec pr HP). cbn [append words_from delim flush]. rewrite (words_str pr HP) by reflexivity. cbn [append words_from delim flush]. rewrite (words_str pr HP) by reflexivity. cbn [append words_from delim flush].
    rewrite (words_str pr HP) by reflexivity. cbn [append words_from delim flush]. now rewrite (words_str pr HP) by reflexivity.
Qed.
Example C129_words_nonvacuous : plain (mkPrinter str_F (fun x => x)) /\ words (Vector2D_repr (mkPrinter str_F (fun x => x)) (mkVec (F_of_Z 0) B754_nan true)) = ["0"; "nan"]%string.
Proof.
  split; [|vm_compute; reflexivity]. intros x. split; [|apply C129_nonvacuous]. destruct x as [[]|[]| |s m e B]; try discriminate. cbn [str_num str_F].
  intros E. apply (f_equal (all_chars no_e)) in E. rewrite all_app in E. cbn in E. rewrite andb_false_r in E. discriminate.
Qed.
Local Open Scope string_scope.

(** ** C130: what to_str leaves
    The shapes' to_str methods are meant to append a description to a string.
    Those of circles, segments and triangles leave nothing behind; that of
    rectangles returns the extended string, from which the rounded sides can be
    read back. *)
Theorem C130_to_str : forall (T : Type) (N : Num T) (pr : printer T) (out : string),
  (forall c : circle T, Circle2D_to_str pr c out = (out, None)) /\
  (forall s : seg T, Segment2D_to_str pr s out = (out, None)) /\
  (forall t : triangle T, Triangle2D_to_str pr t out = (out, None)) /\
  (forall r : rect T, exists text, Rect2D_to_str pr r out = (out, Some (out ++ text)) /\
     (faithful pr -> forall s, Rect2D_to_str pr s out = (out, Some (out ++ text)) <->
        round3 pr (Rect2D_left r) = round3 pr (Rect2D_left s) /\ round3 pr (Rect2D_top r) = round3 pr (Rect2D_top s) /\
        round3 pr (Rect2D_right r) = round3 pr (Rect2D_right s) /\ round3 pr (Rect2D_bottom r) = round3 pr (Rect2D_bottom s))).
Proof.
  intros T N pr out. split; [reflexivity|]. split; [reflexivity|]. split; [reflexivity|]. intros r. unfold Rect2D_to_str. eexists. split; [reflexivity|]. intros HF s. split.
  - intros E. assert (E0 : forall u v : string, (out, Some u) = (out, Some v) -> u = v) by now intros u v [= ->]. apply E0 in E. clear E0. apply pre_inv in E. apply pre_inv in E. cbn [append] in E.
    apply (dec_num pr HF) in E as (E1 & _ & E); try reflexivity. apply (dec_num pr HF) in E as (E2 & _ & E); try reflexivity. do 13 apply cons_inv in E as [_ E].
    apply (dec_num pr HF) in E as (E3 & _ & E); try reflexivity. apply (dec_num pr HF) in E as (E4 & _ & E); try reflexivity. auto.
  - intros (-> & -> & -> & ->). reflexivity.
Qed.
Example C130_nonvacuous : faithful (mkPrinter str_F (fun x => x)) /\ forall L : libm,
  snd (@Rect2D_to_str F (NumF L) (mkPrinter str_F (fun x => x)) (mkRect (mkVec (F_of_Z 0) B754_nan true) (mkSize (F_of_Z 0) (F_of_Z 0)) true) "ab") = Some "ab(rect 0 nan             f0 nan)".
Proof. split; [exact C129_nonvacuous|]. intros L. vm_compute. reflexivity. Qed.

(** The words of the rectangle's text: the sides in the order left, top, right,
    bottom, rounded; the third carries a stray f. *)
Theorem C130_words : forall (T : Type) (N : Num T) (pr : printer T), plain pr -> let n x := str_num pr (round3 pr x) in
  forall (r : rect T) (out : string), exists text, Rect2D_to_str pr r out = (out, Some (out ++ text)) /\
    words text = ["rect"; n (Rect2D_left r); n (Rect2D_top r); "f" ++ n (Rect2D_right r); n (Rect2D_bottom r)].
Proof.
  intros T N pr HP n r out. unfold Rect2D_to_str. eexists. split; [reflexivity|]. unfold words. cbn [append words_from delim flush].
  rewrite (words_str pr HP) by reflexivity. rewrite (words_str pr HP) by reflexivity. cbn [append words_from delim flush].
  destruct (HP (round3 pr (Rect2D_right r))) as [_ A]. rewrite (words_num _ A). cbn [append words_from delim flush]. now rewrite (words_str pr HP) by reflexivity.
Qed.

(** ** C131: hashing vectors *)
(** Specification: Python's rule for numbers, x == y implies equal hashes. *)
Definition respects_eq {T} `{Num T} (hs : hasher T) : Prop := forall x y, neqb x y = true -> hash_num hs x = hash_num hs y.
Theorem C131_hash : forall (T : Type) (N : Num T) (hs : hasher T), respects_eq hs ->
  (forall v w, Vector2D_eq v w = true -> Vector2D_hash hs v = Vector2D_hash hs w) /\
  (* a set finds what a list of the same objects finds *)
  (forall (h : vheap) l x, py_in_set hs h x (py_set_of hs h l) = py_in_list h x l) /\
  (* an object changed after it went into a set is no longer found there under its new value *)
  (forall (h : vheap) l i v, (forall j, In j l -> j = i \/ Vector2D_hash hs (h j) <> Vector2D_hash hs v) -> Vector2D_hash hs (h i) <> Vector2D_hash hs v ->
     py_in_set hs (vheap_set h i v) i (py_set_of hs h l) = false /\ py_in_list (vheap_set h i v) i l = existsb (Nat.eqb i) l).
Proof.
  intros T N hs HR.
  assert (HE : forall v w, Vector2D_eq v w = true -> Vector2D_hash hs v = Vector2D_hash hs w).
  { unfold Vector2D_eq, Vector2D_hash. intros v w E. apply andb_true_iff in E as [E1 E2]. now rewrite (HR _ _ E1), (HR _ _ E2). }
  split; [exact HE|]. split.
  - intros h l x. unfold py_in_set, py_set_of, py_in_list. induction l as [|i l IH]; [reflexivity|]. cbn [map existsb fst snd]. rewrite IH. f_equal.
    destruct (Nat.eqb_spec i x) as [->|NE]; [now rewrite Z.eqb_refl|]. cbn [orb]. destruct (Vector2D_eq (h i) (h x)) eqn:E; [|now rewrite andb_false_r].
    rewrite (HE _ _ E), Z.eqb_refl. reflexivity.
  - intros h l i v HL HI. unfold py_in_set, py_set_of, py_in_list, vheap_set. rewrite Nat.eqb_refl. split.
    + apply not_true_iff_false. intros E. apply existsb_exists in E as ((k & j) & HJ & E). apply in_map_iff in HJ as (j' & [= <- <-] & HJ). cbn [fst snd] in E.
      apply andb_true_iff in E as [E _]. apply Z.eqb_eq in E. destruct (HL _ HJ) as [->|K]; [now apply HI|now apply K].
    + induction l as [|j l IH]; [reflexivity|]. cbn [existsb]. rewrite IH by (intros; apply HL; now right). f_equal.
      destruct (Nat.eqb_spec j i) as [->|NE]; [now rewrite Nat.eqb_refl|]. cbn [orb]. rewrite (proj2 (Nat.eqb_neq i j)) by auto.
      apply not_true_iff_false. intros E. apply HE in E. destruct (HL j) as [K|K]; [now left|now apply NE|now apply K].
Qed.
(** Objects of the other classes: those that define == cannot be hashed. *)
Theorem C131_unhashable : forall (T : Type) (N : Num T) (hs : hasher T) (a : Z) (x : val T),
  py_hash hs a x = Raise TypeError <->
   (exists y, x = VAng y) \/ (exists y, x = VLine y) \/ (exists y, x = VSeg y) \/ (exists y, x = VRay y) \/ (exists y, x = VSize y) \/ (exists y, x = VMat y) \/ (exists y, x = VList y).
Proof.
  intros T N hs a x. split.
  - destruct x; cbn; try discriminate; eauto 12.
  - intros [[y ->]|[[y ->]|[[y ->]|[[y ->]|[[y ->]|[[y ->]|[y ->]]]]]]]; reflexivity.
Qed.
(** A hash of doubles that meets the rule, and a set that loses its element. *)
Definition hash_F (x : F) : Z := match x with B754_finite s m e _ => (if s then Z.neg m else Z.pos m) * 4096 + (if s then - e else e) | B754_infinity true => -1 | B754_infinity false => 1 | _ => 0 end.
Example C131_nonvacuous : forall L : libm, let hs := mkHasher hash_F (fun a b => a + 3 * b)%Z in
  @respects_eq F (NumF L) hs /\
  Vector2D_hash hs (mkVec (F_of_Z 1) (F_of_Z 2) true) <> Vector2D_hash hs (mkVec (F_of_Z 1) (F_of_Z 3) true).
Proof.
  intros L hs. split; [|vm_compute; discriminate]. intros x y. cbn [neqb NumF hs hash_num]. intros E.
  assert (NZ : forall s m e B, B2R (B754_finite s m e B : F) <> 0%R).
  { intros s m e B K. cbn in K. apply eq_0_F2R in K. now destruct s. }
  assert (FIN : is_finite x = true -> is_finite y = true -> B2R x = B2R y).
  { intros F1 F2. rewrite Beqb_correct in E by assumption. destruct (Req_bool_spec (B2R x) (B2R y)); [assumption|discriminate]. }
  destruct x as [s|s| |s m e B], y as [s'|s'| |s' m' e' B']; try discriminate; try reflexivity.
  all: try (exfalso; destruct s, s'; discriminate).
  all: try (exfalso; destruct s; discriminate).
  all: try (exfalso; destruct s'; discriminate).
  all: try (destruct s, s'; try discriminate; reflexivity).
  all: try (exfalso; eapply NZ; (now apply FIN) || (symmetry; now apply FIN)).
  rewrite (B2R_inj _ _ (B754_finite s m e B : F) (B754_finite s' m' e' B' : F)); [reflexivity|reflexivity|reflexivity|now apply FIN].
Qed.
