(** * P_GrahamF: the Graham scan on arbitrary doubles (C140)

    As for gift wrapping (C123) the run in doubles is shown to be, step by step,
    the run over the reals: the scan asks only for signs of areas, comparisons of
    areas with EPSILON, and comparisons of distances of coinciding points. *)
From Coq Require Import ZArith List Bool String Reals Lra Lia Psatz Permutation.
From Flocq Require Import Core BinarySingleNaN.
From Verif Require Import Base Types NumR NumF R_Tac Spec Spec2 Abs M_Angle M_Vector M_Line M_Triangle M_Segment M_Polygon
  L_Angle P_Vector P_Line L_Seg P_Segment P_Triangle P_Polygon P_Polygon2 M_Hull P_Hull P_Hull2 P_Hull4 P_Graham L_Float P_Float P_Grid P_Grid2 P_HullF P_Robust P_HullRobust P_VecF.
Import ListNotations.
Local Open Scope R_scope.

(** ** Lists under a map *)
Definition rmap {A B} (f : A -> B) (r : res A) : res B := match r with Ok a => Ok (f a) | Raise e => Raise e end.
Lemma py_index_map {A B} (f : A -> B) l i : py_index (map f l) i = py_index l i.
Proof. unfold py_index. now rewrite map_length. Qed.
Lemma py_get_map {A B} (f : A -> B) l i : py_get (map f l) i = rmap f (py_get l i).
Proof. unfold py_get. rewrite py_index_map. destruct (py_index l i) as [j|]; [|reflexivity]. rewrite nth_error_map. now destruct (nth_error l j). Qed.
Lemma list_set_map {A B} (f : A -> B) l i a : list_set (map f l) i (f a) = map f (list_set l i a).
Proof. revert i. induction l as [|b l IH]; intros [|i]; cbn; try reflexivity. now rewrite IH. Qed.
Lemma py_set_map {A B} (f : A -> B) l i a : py_set (map f l) i (f a) = rmap (map f) (py_set l i a).
Proof. unfold py_set. rewrite py_index_map. destruct (py_index l i) as [j|]; [|reflexivity]. cbn. now rewrite list_set_map. Qed.
Lemma py_get_in {A} (l : list A) i a : py_get l i = Ok a -> In a l.
Proof. unfold py_get. destruct (py_index l i) as [j|]; [|discriminate]. destruct (nth_error l j) eqn:E; [|discriminate]. intros [= <-]. now apply nth_error_In in E. Qed.
Lemma py_get_adjacent {A} (l : list A) t a b : (2 <= List.length l)%nat -> py_get l (t - 1) = Ok a -> py_get l t = Ok b ->
  exists i j, i <> j /\ nth_error l i = Some a /\ nth_error l j = Some b.
Proof.
  intros Hn. unfold py_get, py_index. set (n := Z.of_nat (List.length l)). assert (2 <= n)%Z by (unfold n; lia).
  destruct (Z.ltb_spec (t - 1) 0), (Z.ltb_spec t 0); match goal with |- context [if ?c then Some (Z.to_nat ?x) else None] => destruct c eqn:C1 end; try discriminate;
   (destruct (nth_error l _) eqn:E1; [|discriminate]); intros [= ->]; match goal with |- context [if ?c then Some (Z.to_nat ?x) else None] => destruct c eqn:C2 end; try discriminate;
   (destruct (nth_error l _) eqn:E2 in |- *; [|discriminate]); intros [= ->]; eexists _, _; (split; [|split; eassumption]);
   apply andb_true_iff in C1; apply andb_true_iff in C2; destruct C1 as [C1 C3], C2 as [C2 C4]; apply Z.leb_le in C1; apply Z.leb_le in C2; apply Z.ltb_lt in C3; apply Z.ltb_lt in C4; lia.
Qed.
Lemma fop_unique {A} (R : A -> A -> Prop) (l l' : list A) : NoDup l -> Permutation l l' -> ForallOrdPairs R l -> ForallOrdPairs R l' ->
  (forall a b, In a l -> In b l -> a <> b -> R a b -> R b a -> False) -> l = l'.
Proof.
  revert l'. induction l as [|a l IH]; intros l' ND P F F' AS.
  - now apply Permutation_nil in P.
  - destruct l' as [|b l']; [apply Permutation_sym, Permutation_nil in P; discriminate|].
    assert (E : a = b).
    { assert (Ia : In a (b :: l')) by (apply (Permutation_in _ P); now left). assert (Ib : In b (a :: l)) by (apply (Permutation_in _ (Permutation_sym P)); now left).
      destruct Ia as [->|Ia]; [reflexivity|]. destruct Ib as [->|Ib]; [reflexivity|]. exfalso.
      inversion ND as [|x y N1 N2]; subst. inversion F as [|x y F1 F2]; subst. inversion F' as [|x y F3 F4]; subst. rewrite Forall_forall in *.
      apply (AS a b); [now left|now right|intros ->; contradiction|now apply F1|now apply F3]. }
    subst b. f_equal. inversion ND; inversion F; inversion F'; subst. apply IH; try assumption; [now apply Permutation_cons_inv in P|]. intros x y Hx Hy. apply AS; now right.
Qed.
Lemma fop_map {A B} (f : A -> B) (R : B -> B -> Prop) (S : A -> A -> Prop) l : (forall a b, In a l -> In b l -> a <> b -> S a b -> R (f a) (f b)) -> NoDup l -> ForallOrdPairs S l -> ForallOrdPairs R (map f l).
Proof.
  intros H ND F. induction F as [|a l F1 F2 IH]; cbn; constructor.
  - rewrite Forall_forall in *. intros b Hb. apply in_map_iff in Hb. destruct Hb as (c & <- & Hc). inversion ND; subst. apply H; [now left|now right|intros ->; contradiction|now apply F1].
  - apply IH; [|now inversion ND]. intros x y Hx Hy. apply H; now right.
Qed.

(** ** Areas of coinciding points are exactly zero *)
Lemma sub_same (x y : F) : is_finite x = true -> is_finite y = true -> B2R x = B2R y -> B2R (Bminus mode_NE x y) = 0 /\ is_finite (Bminus mode_NE x y) = true.
Proof.
  intros X Y E. assert (Z : rnd64 (B2R x - B2R y) = 0) by (rewrite E, Rminus_eq_0; apply round_0; apply valid_rnd_N).
  destruct (F_sub x y X Y) as [A B]; [rewrite Z, Rabs_R0; apply bpow_gt_0|]. now rewrite A.
Qed.
Lemma mul_zero (x y : F) : is_finite x = true -> is_finite y = true -> B2R x * B2R y = 0 -> B2R (Bmult mode_NE x y) = 0 /\ is_finite (Bmult mode_NE x y) = true.
Proof.
  intros X Y E. assert (Z : rnd64 (B2R x * B2R y) = 0) by (rewrite E; apply round_0; apply valid_rnd_N).
  destruct (F_mul x y X Y) as [A B]; [rewrite Z, Rabs_R0; apply bpow_gt_0|]. now rewrite A.
Qed.
Lemma add_cancel (x y : F) : is_finite x = true -> is_finite y = true -> B2R x + B2R y = 0 -> B2R (Bplus mode_NE x y) = 0 /\ is_finite (Bplus mode_NE x y) = true.
Proof.
  intros X Y E. assert (Z : rnd64 (B2R x + B2R y) = 0) by (rewrite E; apply round_0; apply valid_rnd_N).
  destruct (F_add x y X Y) as [A B]; [rewrite Z, Rabs_R0; apply bpow_gt_0|]. now rewrite A.
Qed.
Lemma sub_within k x y : (-500 <= k <= 480)%Z -> is_finite x = true -> is_finite y = true -> Rabs (B2R x) <= bpow radix2 k -> Rabs (B2R y) <= bpow radix2 k ->
  is_finite (Bminus mode_NE x y) = true /\ B2R (Bminus mode_NE x y) = rnd64 (B2R x - B2R y) /\ Rabs (B2R (Bminus mode_NE x y)) <= bpow radix2 (k + 1).
Proof.
  intros Hk X Y BX BY. assert (B : Rabs (B2R x - B2R y) <= bpow radix2 (k + 1)). { rewrite Z.add_comm, bp2. apply Rabs_le. apply Rabs_le_inv in BX, BY. lra. }
  destruct (rnd_err _ (k + 1) ltac:(lia) B) as [_ E2]. destruct (F_sub x y X Y) as [A1 A2]; [apply (finite_lt (k + 1)); [lia|exact E2]|]. rewrite A1. auto.
Qed.
Lemma mul_within j x y : (-500 <= j <= 490)%Z -> is_finite x = true -> is_finite y = true -> Rabs (B2R x) <= bpow radix2 j -> Rabs (B2R y) <= bpow radix2 j ->
  is_finite (Bmult mode_NE x y) = true /\ B2R (Bmult mode_NE x y) = rnd64 (B2R x * B2R y).
Proof.
  intros Hk X Y BX BY. assert (B : Rabs (B2R x * B2R y) <= bpow radix2 (j + j)). { rewrite bpow_plus, Rabs_mult. apply Rmult_le_compat; try apply Rabs_pos; assumption. }
  destruct (rnd_err _ (j + j) ltac:(lia) B) as [_ E2]. destruct (F_mul x y X Y) as [A1 A2]; [apply (finite_lt (j + j)); [lia|exact E2]|]. auto.
Qed.
Lemma fpt_eq (a b : vec F) : fpt a = fpt b <-> B2R (vx a) = B2R (vx b) /\ B2R (vy a) = B2R (vy b).
Proof. unfold fpt. split; [intros [= A B]; auto|intros [A B]; now rewrite A, B]. Qed.
Lemma area_deg L k a b c : (-500 <= k <= 480)%Z -> within k a -> within k b -> within k c -> fpt a = fpt b \/ fpt b = fpt c \/ fpt a = fpt c ->
  is_finite (@double_signed_area_st F (NumF L) a b c) = true /\ B2R (@double_signed_area_st F (NumF L) a b c) = 0.
Proof.
  intros Hk (A1 & A2 & A3 & A4) (B1 & B2 & B3 & B4) (C1 & C2 & C3 & C4) D. unfold double_signed_area_st. cbn [nsub nmul nadd NumF].
  destruct (sub_within k (vx a) (vx c) Hk A1 C1 A3 C3) as (P1 & P2 & P3). destruct (sub_within k (vy b) (vy c) Hk B2 C2 B4 C4) as (Q1 & Q2 & Q3).
  destruct (sub_within k (vx b) (vx c) Hk B1 C1 B3 C3) as (R1 & R2 & R3). destruct (sub_within k (vy c) (vy a) Hk C2 A2 C4 A4) as (S1 & S2 & S3).
  destruct D as [D|[D|D]]; apply fpt_eq in D; destruct D as [D1 D2].
  - destruct (mul_within (k + 1) _ _ ltac:(lia) P1 Q1 P3 Q3) as [M1 M2]. destruct (mul_within (k + 1) _ _ ltac:(lia) R1 S1 R3 S3) as [M3 M4].
    apply and_comm, add_cancel; [assumption|assumption|]. rewrite M2, M4, P2, Q2, R2, S2, D1, D2. replace (B2R (vy c) - B2R (vy b)) with (- (B2R (vy b) - B2R (vy c))) by ring. rewrite rnd_opp, Ropp_mult_distr_r_reverse, rnd_opp. ring.
  - destruct (sub_same (vy b) (vy c) B2 C2 D2) as [Z1 _]. destruct (sub_same (vx b) (vx c) B1 C1 D1) as [Z2 _].
    destruct (mul_zero _ _ P1 Q1) as [M1 M2]; [rewrite Z1; ring|]. destruct (mul_zero _ _ R1 S1) as [M3 M4]; [rewrite Z2; ring|]. apply and_comm, add_cancel; [assumption|assumption|]. rewrite M1, M3. ring.
  - destruct (sub_same (vx a) (vx c) A1 C1 D1) as [Z1 _]. destruct (sub_same (vy c) (vy a) C2 A2 (eq_sym D2)) as [Z2 _].
    destruct (mul_zero _ _ P1 Q1) as [M1 M2]; [rewrite Z1; ring|]. destruct (mul_zero _ _ R1 S1) as [M3 M4]; [rewrite Z2; ring|]. apply and_comm, add_cancel; [assumption|assumption|]. rewrite M1, M3. ring.
Qed.

(** ** Squared distances *)
Lemma dist2_zero L (a b : vec F) : pow_accurate L -> finv a -> finv b -> fpt a = fpt b -> exists q : F, @Vector2D_dist2 F (NumF L) a b = Ok q /\ is_finite q = true /\ B2R q = 0.
Proof.
  intros P [A1 A2] [B1 B2] E. apply fpt_eq in E. destruct E as [E1 E2].
  assert (T : forall t, t = 0 -> Rabs t <= bpow radix2 500) by (intros t ->; rewrite Rabs_R0; apply bpow_ge_0).
  destruct (powi_acc L (vx a) (vx b) P A1 B1 (T (B2R (vx a) - B2R (vx b)) ltac:(lra))) as (p & P1 & P2 & _ & P3). destruct (powi_acc L (vy a) (vy b) P A2 B2 (T (B2R (vy a) - B2R (vy b)) ltac:(lra))) as (q & Q1 & Q2 & _ & Q3).
  destruct (add_cancel p q P2 Q2) as [S1 S2]; [rewrite P3, Q3 by lra; ring|]. exists (Bplus mode_NE p q). split; [|auto]. unfold Vector2D_dist2. rewrite P1, Q1. reflexivity.
Qed.
Lemma edist_fpt (a b : vec F) : edist (pt (rvec a)) (pt (rvec b)) = edist (fpt a) (fpt b). Proof. reflexivity. Qed.
Lemma edist_up k a b : within k a -> within k b -> edist (fpt a) (fpt b) <= bpow radix2 (k + 2).
Proof.
  intros (A1 & A2 & A3 & A4) (B1 & B2 & B3 & B4). apply Rsqr_incr_0_var; [|apply bpow_ge_0]. unfold Rsqr, edist. rewrite norm_sq. unfold norm2, psub, px, py, fpt. cbn [fst snd].
  replace (k + 2)%Z with (1 + (1 + k))%Z by lia. rewrite !bp2. apply Rabs_le_inv in A3, A4, B3, B4. pose proof (bpow_ge_0 radix2 k). nra.
Qed.
Lemma side_le a b c : Rabs (side a b c) <= edist a b * edist a c.
Proof.
  apply Rsqr_incr_0_var; [|apply Rmult_le_pos; apply edist_nonneg]. rewrite <- Rsqr_abs. unfold Rsqr.
  replace (edist a b * edist a c * (edist a b * edist a c)) with ((edist a b * edist a b) * (edist a c * edist a c)) by ring.
  rewrite edist_sym, (edist_sym a c). unfold edist. rewrite !norm_sq. unfold side, cross, norm2, psub, px, py. cbn [fst snd].
  pose proof (Rle_0_sqr ((fst b - fst a) * (fst c - fst a) + (snd b - snd a) * (snd c - snd a))) as K. unfold Rsqr in K. nra.
Qed.
Lemma dist2_pos L k (a b c : vec F) : pow_accurate L -> (-500 <= k <= 450)%Z -> within k a -> within k b -> within k c -> Rabs (side (fpt a) (fpt b) (fpt c)) >= 1 / 999999 ->
  exists q : F, @Vector2D_dist2 F (NumF L) a b = Ok q /\ is_finite q = true /\ 0 < B2R q.
Proof.
  intros P Hk WA WB WC M. pose proof WA as (A1 & A2 & _). pose proof WB as (B1 & B2 & _).
  pose proof (edist_up k a b WA WB) as U1. pose proof (edist_up k a c WA WC) as U2. pose proof (side_le (fpt a) (fpt b) (fpt c)) as S.
  assert (LOW : bpow radix2 (-480) <= edist (fpt a) (fpt b)).
  { pose proof (edist_nonneg (fpt a) (fpt b)) as N. destruct (Rle_lt_dec (bpow radix2 (-480)) (edist (fpt a) (fpt b))) as [K|K]; [exact K|exfalso].
    assert (T : edist (fpt a) (fpt b) * edist (fpt a) (fpt c) <= bpow radix2 (-480) * bpow radix2 (k + 2)) by (apply Rmult_le_compat; try apply edist_nonneg; lra).
    rewrite <- bpow_plus in T. assert (T2 : bpow radix2 (-480 + (k + 2)) <= bpow radix2 (-28)) by (apply bpow_le; lia). assert (bpow radix2 (-28) < 1 / 999999) by (cbn; lra). lra. }
  assert (U3 : bpow radix2 (k + 2) <= bpow radix2 500) by (apply bpow_le; lia).
  destruct (dist_acc L a b P A1 A2 B1 B2) as (q & _ & Q1 & Q2 & Q3 & _). { rewrite edist_fpt. lra. }
  exists q. split; [exact Q1|]. split; [exact Q2|]. rewrite edist_fpt in Q3. pose proof (bpow_gt_0 radix2 (-480)). assert (0 < edist (fpt a) (fpt b) * edist (fpt a) (fpt b)) by nra. pose proof u_pos. apply Rabs_le_inv in Q3. nra.
Qed.

Lemma rmap_ok {A B} (f : A -> B) r b : rmap f r = Ok b -> exists a, r = Ok a /\ b = f a.
Proof. destruct r; cbn; [intros [= <-]; eauto|discriminate]. Qed.
Lemma dist2_rR (a b : vec R) : Vector2D_dist2 a b = Ok (norm2 (psub (pt a) (pt b))). Proof. apply dist2_R. Qed.
Lemma norm2_0 (p : point) : norm2 (psub p p) = 0. Proof. destruct p. unfold norm2, psub, px, py. cbn. ring. Qed.
Lemma norm2_sub_pos (p q : point) : p <> q -> 0 < norm2 (psub p q).
Proof. intros N. apply norm2_pos. destruct p, q. unfold psub, px, py. cbn. intros [= A B]. apply N. f_equal; lra. Qed.

(** ** The questions the scan asks get the answers of the real numbers *)
Section GF.
  Variables (L : libm) (k : Z) (pts : list (vec F)).
  Hypothesis PA : pow_accurate L.
  Hypothesis Hk : (-500 <= k <= 450)%Z.
  Hypothesis W : forall v, In v pts -> within k v.
  Hypothesis Hn : (3 <= List.length pts)%nat.
  Hypothesis ND : NoDup (map fpt pts).
  Hypothesis M : forall a b c, In a pts -> In b pts -> In c pts -> fpt a <> fpt b -> fpt b <> fpt c -> fpt a <> fpt c ->
    Rabs (side (fpt a) (fpt b) (fpt c)) >= bpow radix2 (2 * k - 49) + 1 / 999999.
  Lemma fin_pts v : In v pts -> finv v. Proof. intros I. destruct (W v I) as (A & B & _). now split. Qed.
  Lemma fpt_inj a b : In a pts -> In b pts -> fpt a = fpt b -> a = b.
  Proof.
    clear - ND. induction pts as [|c l IH]; [easy|]. cbn [map] in ND. inversion ND as [|x y N1 N2]; subst.
    intros [->|Ha] [->|Hb] E; auto; exfalso; apply N1; [rewrite E|rewrite <- E]; now apply in_map.
  Qed.
  Lemma fpt_neq a b : In a pts -> In b pts -> a <> b -> fpt a <> fpt b. Proof. intros A B N E. apply N. now apply fpt_inj. Qed.
  Lemma fpt_dec a b : In a pts -> In b pts -> a = b \/ a <> b.
  Proof. intros A B. destruct (pt_dec (fpt a) (fpt b)) as [E|E]; [left; now apply fpt_inj|right; congruence]. Qed.
  Lemma third a b : exists c, In c pts /\ fpt a <> fpt c /\ fpt b <> fpt c.
  Proof.
    destruct (Classical_Prop.classic (exists c, In c pts /\ fpt a <> fpt c /\ fpt b <> fpt c)) as [K|K]; [exact K|exfalso].
    assert (I : incl (map fpt pts) [fpt a; fpt b]).
    { intros x Hx. apply in_map_iff in Hx. destruct Hx as (c & <- & Hc). destruct (pt_dec (fpt a) (fpt c)) as [E|E]; [now left|]. destruct (pt_dec (fpt b) (fpt c)) as [E2|E2]; [right; now left|]. exfalso. apply K. eauto. }
    apply (NoDup_incl_length ND) in I. rewrite map_length in I. cbn in I. lia.
  Qed.
  Lemma marg a b c : In a pts -> In b pts -> In c pts -> fpt a <> fpt b -> fpt b <> fpt c -> fpt a <> fpt c -> Rabs (side (fpt a) (fpt b) (fpt c)) >= 1 / 999999.
  Proof. intros A B C N1 N2 N3. pose proof (M a b c A B C N1 N2 N3). pose proof (bpow_gt_0 radix2 (2 * k - 49)). lra. Qed.
  (** the squared distance of two different points is positive *)
  Lemma d2_pos a b o : In o pts -> In b pts -> within k a -> fpt a = fpt o -> o <> b -> exists q : F, @Vector2D_dist2 F (NumF L) a b = Ok q /\ is_finite q = true /\ 0 < B2R q.
  Proof.
    intros A B WA E N. destruct (third o b) as (c & C & N1 & N2). apply (dist2_pos L k a b c PA Hk WA (W b B) (W c C)). rewrite E. apply marg; try assumption. now apply fpt_neq.
  Qed.
  Lemma zero_tests (ar : F) : is_finite ar = true -> B2R ar = 0 -> @nltb F (NumF L) ar (@nlit F (NumF L) 0 1) = false /\ @nltb F (NumF L) ar (@EPSILON F (NumF L)) = true.
  Proof.
    intros E1 E2. rewrite num0_F. destruct (F_of_Z_exact 0 eq_refl) as [Z1 Z2]. pose proof (eps_tight L) as [P1 _].
    assert (P3 : 0 < B2R (@EPSILON F (NumF L))) by (vm_compute; lra). cbn [nltb NumF]. rewrite !ltb_F by assumption. rewrite E2, Z1. split; [apply Rlt_bool_false|apply Rlt_bool_true]; [lra|exact P3].
  Qed.
  Lemma cw_F a b p : In a pts -> In b pts -> In p pts -> a <> b -> @hull_is_clockwise F (NumF L) a b p = hull_is_clockwise (rvec a) (rvec b) (rvec p).
  Proof.
    intros A B P N. unfold hull_is_clockwise. destruct (fpt_dec p a P A) as [->|Na]; [|destruct (fpt_dec p b P B) as [->|Nb]].
    - destruct (area_deg L k a b a ltac:(lia) (W a A) (W b B) (W a A) ltac:(auto)) as [D1 D2]. destruct (zero_tests _ D1 D2) as [-> ->].
      destruct (d2_pos a b a A B (W a A) eq_refl N) as (q & -> & Q1 & Q2). destruct (dist2_zero L a a PA (fin_pts a A) (fin_pts a A) eq_refl) as (z & -> & Z1 & Z2). cbn [bind].
      rewrite area_side. assert (side (pt (rvec a)) (pt (rvec b)) (pt (rvec a)) = 0) as -> by (destruct (pt (rvec a)), (pt (rvec b)); sides; ring).
      rewrite !dist2_rR. cbn [bind]. rewrite norm2_0. pose proof (norm2_sub_pos _ _ (fpt_neq a b A B N)) as NP. change (fpt a) with (pt (rvec a)) in NP. change (fpt b) with (pt (rvec b)) in NP.
      cbn [nltb NumF]. rewrite ltb_F by assumption. unfold EPSILON. rnum. rewrite (Rlt_bool_false 0 0), !Rlt_bool_true by lra. reflexivity.
    - destruct (area_deg L k a b b ltac:(lia) (W a A) (W b B) (W b B) ltac:(auto)) as [D1 D2]. destruct (zero_tests _ D1 D2) as [-> ->].
      destruct (d2_pos a b a A B (W a A) eq_refl N) as (q & -> & Q1 & Q2). cbn [bind].
      rewrite area_side. assert (side (pt (rvec a)) (pt (rvec b)) (pt (rvec b)) = 0) as -> by (destruct (pt (rvec a)), (pt (rvec b)); sides; ring).
      rewrite !dist2_rR. cbn [bind]. cbn [nltb NumF]. rewrite ltb_F by assumption. unfold EPSILON. rnum. rewrite (Rlt_bool_false 0 0), (Rlt_bool_true 0), !Rlt_bool_false by lra. reflexivity.
    - destruct (margin_tests L k a b p ltac:(lia) (W a A) (W b B) (W p P)) as [T1 T2]; [apply M; try assumption; apply fpt_neq; auto|]. cbv zeta in T1, T2. rewrite T1.
      destruct (nltb (double_signed_area_st (rvec a) (rvec b) (rvec p)) (num 0)); [reflexivity|]. destruct (T2 eq_refl) as [-> ->]. reflexivity.
  Qed.
  (** *** Lists of points of the input *)
  Definition sub_pts (l : list (vec F)) : Prop := NoDup l /\ incl l pts.
  Lemma sub_perm l l' : Permutation l l' -> sub_pts l -> sub_pts l'.
  Proof. intros P [A B]. split; [exact (Permutation_NoDup P A)|]. intros v Hv. apply B. now apply (Permutation_in _ (Permutation_sym P)). Qed.
  Lemma pop_F l p fuel : sub_pts l -> (2 <= List.length l)%nat -> In p pts -> forall top, @graham_pop F (NumF L) fuel l p top = graham_pop fuel (map rvec l) (rvec p) top.
  Proof.
    intros [N I] H2 P. induction fuel as [|fuel IH]; intros top; [reflexivity|]. cbn [graham_pop]. rewrite !py_get_map.
    destruct (py_get l (top - 1)) as [a|] eqn:E1; [|reflexivity]. destruct (py_get l top) as [b|] eqn:E2; [|reflexivity]. cbn [rmap bind].
    rewrite cw_F; [|apply I; now apply py_get_in in E1|apply I; now apply py_get_in in E2|assumption|].
    - destruct (hull_is_clockwise (rvec a) (rvec b) (rvec p)) as [[|]|]; cbn [bind]; auto.
    - destruct (py_get_adjacent l top a b H2 E1 E2) as (i & j & Nij & X & Y). intros ->. apply Nij. apply (proj1 (NoDup_nth_error l) N); [|congruence]. apply nth_error_Some. congruence.
  Qed.
  Lemma loop_GF is : forall l top, sub_pts l -> (2 <= List.length l)%nat ->
    graham_loop is (map rvec l) top = rmap (fun r => (map rvec (fst r), snd r)) (@graham_loop F (NumF L) is l top).
  Proof.
    induction is as [|i is IH]; intros l top S H2; [reflexivity|]. cbn [graham_loop]. rewrite !py_get_map, map_length.
    destruct (py_get l (Z.of_nat i)) as [p|] eqn:E1; [|reflexivity]. cbn [rmap bind]. rewrite <- pop_F; [|assumption|assumption|apply S; now apply py_get_in in E1].
    destruct (graham_pop (2 * List.length l + 3) l p top) as [t|] eqn:E2; [|reflexivity]. cbn [bind]. rewrite py_get_map.
    destruct (py_get l (t + 1)) as [tmp|] eqn:E3; [|reflexivity]. cbn [rmap bind]. rewrite py_set_map. destruct (py_set l (t + 1) p) as [l1|] eqn:E4; [|reflexivity]. cbn [rmap bind].
    rewrite py_set_map. destruct (py_set l1 (Z.of_nat i) tmp) as [l2|] eqn:E5; [|reflexivity]. cbn [rmap bind].
    assert (P : Permutation l2 l) by exact (py_swap_perm _ _ _ _ _ _ _ E3 E1 E4 E5). apply IH; [exact (sub_perm _ _ (Permutation_sym P) S)|]. rewrite (Permutation_length P). assumption.
  Qed.
  (** *** The order *)
  Variable o : vec F.
  Hypothesis IO : In o pts.
  Hypothesis EO : fpt o = (0, 0).
  Hypothesis LOW : forall v, In v pts -> B2R (vy v) <= 0.
  Let base : vec F := @V F (@nlit F (NumF L) 0 1) (@nlit F (NumF L) 0 1).
  Lemma base_fpt : fpt base = fpt o. Proof. rewrite EO. unfold fpt, base. cbn [vx vy V]. destruct (F_of_Z_exact 0 eq_refl) as [Z1 _]. change (@nlit F (NumF L) 0 1) with (F_of_Z 0). now rewrite Z1. Qed.
  Lemma base_within : within k base.
  Proof. destruct (F_of_Z_exact 0 eq_refl) as [Z1 Z2]. unfold within, base. cbn [vx vy V]. change (@nlit F (NumF L) 0 1) with (F_of_Z 0). rewrite Z1, Rabs_R0. pose proof (bpow_ge_0 radix2 k). auto. Qed.
  Lemma base_y v : In v pts -> @nltb F (NumF L) (vy base) (vy v) = false.
  Proof. intros I. destruct (F_of_Z_exact 0 eq_refl) as [Z1 Z2]. unfold base. cbn [vy V]. change (@nlit F (NumF L) 0 1) with (F_of_Z 0). cbn [nltb NumF]. rewrite ltb_F; [|assumption|apply (fin_pts v I)]. rewrite Z1. apply Rlt_bool_false. now apply LOW. Qed.
  Lemma lt_GF a b : In a pts -> In b pts -> a <> b -> @angle_lt F (NumF L) a b = angle_lt (rvec a) (rvec b).
  Proof.
    intros A B N. assert (PO : forall v, fpt v = fpt o -> side (0, 0) (pt (rvec v)) (pt (rvec b)) = 0 /\ side (0, 0) (pt (rvec a)) (pt (rvec v)) = 0).
    { intros v E. change (pt (rvec v)) with (fpt v). rewrite E, EO. rewrite !side_O. cbn. lra. }
    pose proof base_fpt as BF. pose proof base_within as BW. destruct BW as (BW1 & BW2 & BW3). pose proof base_within as BW.
    destruct (fpt_dec a o A IO) as [->|Na]; [|destruct (fpt_dec b o B IO) as [->|Nb]].
    - rewrite lt_zero; [|apply (PO o eq_refl)|exact (LOW o A)]. change (pt (rvec o)) with (fpt o). change (pt (rvec b)) with (fpt b). rewrite EO.
      assert (norm2 (0, 0) = 0) as -> by (unfold norm2, px, py; cbn; ring). rewrite Rlt_bool_true by (apply norm2_pos; rewrite <- EO; apply fpt_neq; auto).
      unfold angle_lt, angle_sort_predicate. fold base. destruct (area_deg L k base o b ltac:(lia) BW (W o A) (W b B) ltac:(auto)) as [D1 D2]. destruct (zero_tests _ D1 D2) as [-> ->].
      destruct (dist2_zero L base o PA ltac:(split; assumption) (fin_pts o A) BF) as (z & -> & Z1 & Z2). destruct (d2_pos base b o A B BW BF N) as (q & -> & Q1 & Q2). cbn [bind].
      rewrite (base_y o A). cbn [nltb NumF]. rewrite ltb_F by assumption. rewrite Rlt_bool_true by lra. reflexivity.
    - rewrite lt_zero; [|apply (PO o eq_refl)|exact (LOW a A)]. change (pt (rvec o)) with (fpt o). change (pt (rvec a)) with (fpt a). rewrite EO.
      assert (norm2 (0, 0) = 0) as -> by (unfold norm2, px, py; cbn; ring). pose proof (norm2_pos (fpt a) ltac:(rewrite <- EO; apply fpt_neq; auto)) as NP. rewrite Rlt_bool_false by lra.
      unfold angle_lt, angle_sort_predicate. fold base. destruct (area_deg L k base a o ltac:(lia) BW (W a A) (W o B) ltac:(auto)) as [D1 D2]. destruct (zero_tests _ D1 D2) as [-> ->].
      destruct (dist2_zero L base o PA ltac:(split; assumption) (fin_pts o B) BF) as (z & -> & Z1 & Z2). destruct (d2_pos base a o B A BW BF (not_eq_sym N)) as (q & -> & Q1 & Q2). cbn [bind].
      rewrite (base_y a A). cbn [nltb NumF]. rewrite ltb_F by assumption. rewrite Rlt_bool_false by lra. reflexivity.
    - assert (MG : Rabs (side (fpt base) (fpt a) (fpt b)) >= bpow radix2 (2 * k - 49) + 1 / 999999) by (rewrite BF; apply M; try assumption; apply fpt_neq; auto).
      destruct (margin_tests L k base a b ltac:(lia) BW (W a A) (W b B) MG) as [T1 T2]. cbv zeta in T1, T2. rewrite lt_R.
      2:{ rewrite <- EO, <- BF. pose proof (bpow_gt_0 radix2 (2 * k - 49)). change (pt (rvec a)) with (fpt a). change (pt (rvec b)) with (fpt b). lra. }
      rewrite area_side in T1, T2. change (pt (rvec base)) with (fpt base) in T1, T2. rewrite BF, EO in T1, T2. rnum. change (nltb (side (0, 0) (pt (rvec a)) (pt (rvec b))) (num 0)) with (Rlt_bool (side (0, 0) (pt (rvec a)) (pt (rvec b))) 0) in *.
      unfold angle_lt, angle_sort_predicate. fold base. rewrite T1. destruct (Rlt_bool (side (0, 0) (pt (rvec a)) (pt (rvec b))) 0); [reflexivity|]. destruct (T2 eq_refl) as [-> _]. reflexivity.
  Qed.
End GF.

(** ** The edge list of distinct vertices *)
Lemma build_edges_F L vs : vs <> [] -> Forall finv vs -> NoDup (map fpt vs) ->
  @build_edges F (NumF L) vs = Ok (map (fun e => Segment2D_of_points (fst e) (snd e)) (removelast (closed_edges vs))).
Proof.
  intros NE FV NDv. destruct vs as [|a0 l0]; [easy|]. rewrite Forall_forall in FV.
  assert (IL : forall (l : list (vec F)) a, In (last l a) (a :: l)). { induction l as [|b l IH]; intros a; [now left|]. rewrite last_cons_def. right. apply IH. }
  rewrite build_edges_gen by (rewrite (veq_fin L) by (apply FV, IL); now apply veq_iff). do 2 f_equal. rewrite <- open_removelast.
  rewrite <- (last_cons_def a0 a0). revert FV NDv. generalize (a0 :: l0) as vs. intros vs FV NDv.
  induction vs as [|a l IH]; [reflexivity|]. destruct l as [|b l]; [reflexivity|]. change (open_pairs (a :: b :: l)) with ((a, b) :: open_pairs (b :: l)). cbn [filter fst].
  cbn [map] in NDv. inversion NDv as [|x y N1 N2]; subst. change (last (a :: b :: l) a0) with (last (b :: l) a0).
  rewrite IH; [|intros v Hv; apply FV; now right|exact N2].
  assert (I : In (last (b :: l) a0) (b :: l)) by (rewrite last_cons_def; apply IL).
  destruct (@Vector2D_eq F (NumF L) a (last (b :: l) a0)) eqn:E; [|reflexivity]. exfalso. apply N1.
  rewrite (veq_fin L) in E by (apply FV; [now left|now right] || (apply FV; first [now left|now right])). apply veq_iff in E. change (fpt a = fpt (last (b :: l) a0)) in E. rewrite E. exact (in_map fpt _ _ I).
Qed.

(** ** C140
    The Graham scan in doubles: one of the points is the origin, none is above it,
    and every three span a double area above 2^(2k-49) + 1/999999.  With a pow
    that squares accurately the scan never raises and returns the convex hull. *)
Theorem C140_graham_margin_F : forall (L : libm) (k : Z) (pts : list (vec F)) sorter, pow_accurate L -> (-500 <= k <= 450)%Z -> Forall (within k) pts ->
  sorts (@angle_lt F (NumF L)) sorter -> (3 <= List.length pts)%nat -> NoDup (map fpt pts) ->
  (forall a b c, In a pts -> In b pts -> In c pts -> fpt a <> fpt b -> fpt b <> fpt c -> fpt a <> fpt c ->
     Rabs (side (fpt a) (fpt b) (fpt c)) >= bpow radix2 (2 * k - 49) + 1 / 999999) ->
  (exists v, In v pts /\ fpt v = (0, 0)) -> (forall v, In v pts -> B2R (vy v) <= 0) ->
  exists vs es h, @ConvexHull_compute F (NumF L) sorter GRAHAN_SCAN (ConvexHull_init pts) = Ok h /\
    hull_vertices h = vs /\ h_input h = vs /\ h_edges h = es /\
    (3 <= List.length vs)%nat /\ incl vs pts /\ (exists v t, vs = v :: t /\ fpt v = (0, 0)) /\
    strictly_convex (rev (map fpt vs)) /\
    (forall p, In p pts -> In p vs \/ strictly_inside (rev (map fpt vs)) (fpt p)) /\
    exists first mid lst, vs = first :: mid ++ [lst] /\
      es = map (fun e => Segment2D_of_points (fst e) (snd e)) (removelast (closed_edges vs)) ++ [Segment2D_of_points first lst].
Proof.
  intros L k pts sorter PA Hk W SO Hn ND M (o & IO & EO) LOW. rewrite Forall_forall in W.
  assert (FV : Forall finv pts) by (apply Forall_forall; exact (fin_pts k pts W)).
  set (rp := map rvec pts). assert (ERP : map pt rp = map fpt pts) by (unfold rp; rewrite map_map; reflexivity).
  assert (GP : general_position (map pt rp)).
  { rewrite ERP. split; [exact ND|]. intros A B C IA IB IC N1 N2 N3. apply in_map_iff in IA, IB, IC. destruct IA as (a & <- & IA), IB as (b & <- & IB), IC as (c & <- & IC).
    specialize (M a b c IA IB IC N1 N2 N3). pose proof (bpow_gt_0 radix2 (2 * k - 49)). lra. }
  assert (LOWR : forall v, In v rp -> vy v <= 0) by (intros v Hv; apply in_map_iff in Hv; destruct Hv as (w & <- & Hw); exact (LOW w Hw)).
  destruct (C124_graham_R rp (py_sort_small angle_lt) (C124_python_sort _)) as (vr & er & hr & CR & HV & _ & _ & L3 & _ & (v0 & tl0 & S0 & Z0) & SC & HI & _ & (fr & mr & lr & SV & _)); try assumption.
  { unfold rp. now rewrite map_length. } { exists (rvec o). split; [now apply in_map|exact EO]. }
  (* the run over the reals, step by step *)
  cbn [ConvexHull_compute] in CR |- *. unfold compute_graham_scan in CR |- *. change (h_input (clear_results (ConvexHull_init rp))) with rp in CR. change (h_input (clear_results (ConvexHull_init pts))) with pts.
  rewrite (min_index_F L pts FV). fold rp. destruct (get_min_point_index rp) as [mi|] eqn:EM; [|destruct pts; [cbn in Hn; lia|discriminate]].
  assert (LR : List.length rp = List.length pts) by apply map_length. rewrite LR in CR. destruct (Nat.ltb_spec (List.length pts) 3) as [|_]; [lia|].
  apply bind_ok in CR as (p0r & E1 & CR). apply bind_ok in CR as (pmr & E2 & CR). apply bind_ok in CR as (l1r & E3 & CR). apply bind_ok in CR as (l2r & E4 & CR).
  apply bind_ok in CR as (l3r & E5 & CR). apply bind_ok in CR as ([l4r top] & E6 & CR). apply bind_ok in CR as (esr & _ & CR). apply bind_ok in CR as (fir & E8 & CR). apply bind_ok in CR as (lar & E9 & CR). injection CR as <-.
  unfold rp in E1, E2, E3. rewrite py_get_map in E1, E2. apply rmap_ok in E1 as (p0 & E1 & ->). apply rmap_ok in E2 as (pm & E2 & ->). rewrite py_set_map in E3. apply rmap_ok in E3 as (l1 & E3 & ->). rewrite py_set_map in E4. apply rmap_ok in E4 as (l2 & E4 & ->).
  assert (PM : Permutation l2 pts) by exact (py_swap_perm _ _ _ _ _ _ _ E1 E2 E3 E4).
  assert (SP : sub_pts pts l2). { split; [|intros v; apply (Permutation_in _ PM)]. apply (Permutation_NoDup (Permutation_sym PM)). now apply NoDup_map_inv in ND. }
  (* sorting *)
  assert (LT : forall a b, In a l2 -> In b l2 -> a <> b -> @angle_lt F (NumF L) a b = angle_lt (rvec a) (rvec b)).
  { intros a b A B. apply (lt_GF L k pts PA Hk W Hn ND M o IO EO LOW); now apply SP. }
  assert (RN : forall a b, In a l2 -> In b l2 -> a <> b -> rvec a <> rvec b).
  { intros a b A B N E. apply N. apply (fpt_inj pts ND); [now apply SP|now apply SP|]. unfold fpt. injection E as X Y _. now rewrite X, Y. }
  assert (GP2 : general_position (map pt (map rvec l2))).
  { destruct GP as [G1 G2]. assert (PP : Permutation (map pt (map rvec l2)) (map pt rp)) by (unfold rp; now repeat apply Permutation_map).
    split; [apply (Permutation_NoDup (Permutation_sym PP)); exact G1|]. intros a b c A B C. apply G2; now apply (Permutation_in _ PP). }
  assert (IO2 : In (rvec o) (map rvec l2)) by (apply in_map; now apply (Permutation_in _ (Permutation_sym PM))).
  assert (LOW2 : forall v, In v (map rvec l2) -> vy v <= 0) by (intros v Hv; apply in_map_iff in Hv; destruct Hv as (w & <- & Hw); apply LOW; now apply SP).
  assert (TOT : forall a b, In a l2 -> In b l2 -> a <> b -> (@angle_lt F (NumF L) a b = Ok true /\ @angle_lt F (NumF L) b a = Ok false) \/ (@angle_lt F (NumF L) a b = Ok false /\ @angle_lt F (NumF L) b a = Ok true)).
  { intros a b A B N. rewrite !LT by auto. apply (cmp_total (map rvec l2) (rvec o) GP2 IO2 EO LOW2); [now apply in_map|now apply in_map|now apply RN]. }
  assert (DEC : forall a b, In a l2 -> In b l2 -> a = b \/ a <> b) by (intros a b A B; apply (fpt_dec pts ND); now apply SP).
  destruct (SO l2) as (l3 & F5 & P3 & FO); [apply SP|exact TOT| |].
  { intros a b c A B C H1 H2. destruct (DEC a b A B) as [->|N1]; [assumption|]. destruct (DEC b c B C) as [->|N2]; [assumption|].
    destruct (DEC a c A C) as [->|N3]; [destruct (TOT b c B C N2) as [[? ?]|[? ?]]; congruence|]. rewrite LT in H1, H2 |- * by assumption.
    apply (cmp_trans (map rvec l2) (rvec o) GP2 IO2 EO LOW2 (rvec a) (rvec b) (rvec c)); try assumption; now apply in_map. }
  assert (IN3 : forall v, In v l3 <-> In v l2) by (intros v; split; apply Permutation_in; [symmetry|]; exact P3).
  assert (NDR : NoDup (map rvec l2)) by (destruct GP2 as [G1 _]; now apply NoDup_map_inv in G1).
  assert (E3R : l3r = map rvec l3).
  { destruct (C124_python_sort (@angle_lt R _) (map rvec l2) NDR) as (l' & Q1 & Q2 & Q3); [apply (cmp_total _ (rvec o)); assumption|apply (cmp_trans _ (rvec o)); assumption|].
    rewrite Q1 in E5. injection E5 as <-. apply (fop_unique (fun a b => angle_lt a b = Ok true)).
    - exact (Permutation_NoDup Q2 NDR).
    - rewrite <- Q2. now apply Permutation_map.
    - exact Q3.
    - apply (fop_map rvec _ (fun a b => @angle_lt F (NumF L) a b = Ok true)); [|exact (Permutation_NoDup P3 (proj1 SP))|exact FO].
      intros a b A B N E. rewrite <- LT; [exact E|now apply IN3|now apply IN3|exact N].
    - intros a b A B N X Y. apply (Permutation_in _ (Permutation_sym Q2)) in A, B. destruct (cmp_total _ (rvec o) GP2 IO2 EO LOW2 a b A B N) as [[? ?]|[? ?]]; congruence. }
  subst l3r. assert (SP3 : sub_pts pts l3) by exact (sub_perm pts _ _ P3 SP).
  assert (LL : List.length l3 = List.length pts) by (rewrite <- (Permutation_length P3); now apply Permutation_length).
  rewrite (loop_GF L k pts PA Hk W Hn ND M _ l3 1%Z SP3) in E6 by lia. apply rmap_ok in E6 as ([l4 t4] & E6 & EQ). cbn [fst snd] in EQ. injection EQ as -> ->.
  (* the result *)
  unfold hull_vertices in HV. cbn [h_alias h_input] in HV.
  assert (EVR : py_del_from (map rvec l4) (t4 + 1) = map rvec (py_del_from l4 (t4 + 1))) by (unfold py_del_from; rewrite map_length; apply firstn_map).
  rewrite EVR in *. set (vs := py_del_from l4 (t4 + 1)) in *. subst vr. rewrite py_get_map in E8, E9. apply rmap_ok in E8 as (fi & E8 & ->). apply rmap_ok in E9 as (la & E9 & ->).
  assert (EP : map pt (map rvec vs) = map fpt vs) by (rewrite map_map; reflexivity). rewrite EP in *. rewrite map_length in L3.
  assert (INC : incl vs pts).
  { intros v Hv. apply SP3. apply (Permutation_in _ (graham_loop_perm _ _ _ _ _ E6)). unfold vs, py_del_from in Hv. rewrite <- (firstn_skipn (Z.to_nat (if (t4 + 1 <? 0)%Z then Z.max 0 (t4 + 1 + Z.of_nat (List.length l4)) else (t4 + 1)%Z)) l4). apply in_app_iff. now left. }
  assert (NDv : NoDup (map fpt vs)). { rewrite <- (rev_involutive (map fpt vs)). apply NoDup_rev. apply SC. }
  assert (FVv : Forall finv vs) by (rewrite Forall_forall in *; auto).
  assert (NE : vs <> []) by (intros K; rewrite K in L3; cbn in L3; lia).
  rewrite E1. cbn [bind]. rewrite E2. cbn [bind]. rewrite E3. cbn [bind]. rewrite E4. cbn [bind]. rewrite F5. cbn [bind]. rewrite E6. cbn [bind]. fold vs.
  rewrite (build_edges_F L vs NE FVv NDv). cbn [bind]. rewrite E8. cbn [bind]. rewrite E9. cbn [bind].
  eexists vs, _, _. split; [reflexivity|]. split; [reflexivity|]. split; [reflexivity|]. split; [reflexivity|]. split; [exact L3|]. split; [exact INC|]. split; [|split; [exact SC|split]].
  - clearbody vs. destruct vs as [|v t]; [easy|]. exists v, t. split; [reflexivity|]. cbn [map] in S0. injection S0 as <- _. exact Z0.
  - intros p Hp. destruct (HI (rvec p)) as [I|I]; [now apply in_map| |now right]. left. apply in_map_iff in I. destruct I as (q & Eq & Iq).
    assert (q = p) as <-; [|exact Iq]. apply (fpt_inj pts ND); [now apply INC|assumption|]. unfold fpt. injection Eq as X Y _. now rewrite X, Y.
  - clearbody vs. destruct vs as [|v t]; [easy|]. destruct (exists_last (l := t)) as (mid & lst & ->); [intros ->; cbn in L3; lia|]. exists v, mid, lst. split; [reflexivity|]. f_equal.
    assert (fi = v) as -> by (change (Ok v = Ok fi) in E8; now injection E8).
    unfold py_get, py_index in E9. rewrite app_comm_cons, app_length in E9. cbn [List.length] in E9.
    replace (-1 <? 0)%Z with true in E9 by reflexivity. rewrite (proj2 (Z.leb_le _ _)), (proj2 (Z.ltb_lt _ _)) in E9 by lia. cbn [andb] in E9.
    replace (Z.to_nat (-1 + Z.of_nat (S (List.length mid) + 1))) with (List.length (v :: mid)) in E9 by (cbn [List.length]; lia). rewrite nth_error_app2, Nat.sub_diag in E9 by lia. cbn in E9. injection E9 as ->. reflexivity.
Qed.
Example C140_nonvacuous : let pts := [fv 1 (-3); fv 3 (-1); fv 1 (-1); fv 0 0] in
  pow_accurate libm_sq /\ Forall (within 2) pts /\ sorts (@angle_lt F (NumF libm_sq)) (@py_sort_small F (@angle_lt F (NumF libm_sq))) /\ (3 <= List.length pts)%nat /\ NoDup (map fpt pts) /\
  (forall a b c, In a pts -> In b pts -> In c pts -> fpt a <> fpt b -> fpt b <> fpt c -> fpt a <> fpt c ->
     Rabs (side (fpt a) (fpt b) (fpt c)) >= bpow radix2 (2 * 2 - 49) + 1 / 999999) /\
  (exists v, In v pts /\ fpt v = (0, 0)) /\ (forall v, In v pts -> B2R (vy v) <= 0).
Proof.
  intros pts. assert (FV : forall x y, (Z.abs x < 4)%Z -> (Z.abs y < 4)%Z -> fpt (fv x y) = (IZR x, IZR y) /\ within 2 (fv x y)).
  { intros x y Hx Hy. destruct (F_of_Z_exact x) as [X1 X2]; [lia|]. destruct (F_of_Z_exact y) as [Y1 Y2]; [lia|]. split; [unfold fpt, fv; cbn [vx vy]; now rewrite X1, Y1|].
    unfold within, fv. cbn [vx vy]. rewrite X1, Y1. change (bpow radix2 2) with (IZR 4). rewrite <- !abs_IZR. repeat split; try assumption; apply IZR_le; lia. }
  assert (A := FV 1%Z (-3)%Z eq_refl eq_refl). assert (B := FV 3%Z (-1)%Z eq_refl eq_refl). assert (C := FV 1%Z (-1)%Z eq_refl eq_refl). assert (D := FV 0%Z 0%Z eq_refl eq_refl). clear FV.
  destruct A as [A A'], B as [B B'], C as [C C'], D as [D D'].
  split; [exact pow_accurate_sq|]. split; [unfold pts; repeat (apply Forall_cons; [assumption|]); apply Forall_nil|]. split; [apply (@C124_python_sort F (NumF libm_sq))|]. split; [cbn; lia|]. split; [|split; [|split]].
  - unfold pts. cbn [map]. rewrite A, B, C, D. repeat constructor; cbn; intros K; repeat destruct K as [K|K]; try easy; injection K; intros; lra.
  - change (2 * 2 - 49)%Z with (-45)%Z. change (bpow radix2 (-45)) with (/ 35184372088832).
    assert (G : forall x, x >= 1 \/ x <= - 1 -> Rabs x >= / 35184372088832 + 1/999999) by (intros x; unfold Rabs; destruct Rcase_abs; lra).
    assert (GG : forall a b c : point, In a [(1,-3); (3,-1); (1,-1); (0,0)] -> In b [(1,-3); (3,-1); (1,-1); (0,0)] -> In c [(1,-3); (3,-1); (1,-1); (0,0)] -> a <> b -> b <> c -> a <> c -> Rabs (side a b c) >= / 35184372088832 + 1/999999).
    { clear - G. intros a b c [<-|[<-|[<-|[<-|[]]]]] [<-|[<-|[<-|[<-|[]]]]] [<-|[<-|[<-|[<-|[]]]]] N1 N2 N3; try (exfalso; (apply N1; reflexivity) || (apply N2; reflexivity) || (apply N3; reflexivity)); clear N1 N2 N3;
      unfold side, cross, psub, px, py; cbn [fst snd]; apply G; first [left; lra|right; lra]. }
    assert (EP : map fpt pts = [(1,-3); (3,-1); (1,-1); (0,0)]) by (unfold pts; cbn [map]; now rewrite A, B, C, D).
    intros a b c IA IB IC. apply GG; rewrite <- EP; now apply in_map.
  - exists (fv 0 0). split; [cbn; auto 8|exact D].
  - intros v Hv. assert (K : B2R (vy v) = snd (fpt v)) by reflexivity. rewrite K. destruct Hv as [<-|[<-|[<-|[<-|[]]]]]; rewrite ?A, ?B, ?C, ?D; cbn; lra.
Qed.
