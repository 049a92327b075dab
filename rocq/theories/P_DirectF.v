(** * P_DirectF: the direct convex hull method on arbitrary doubles (C141)

    For one pair of points the direct method multiplies the areas of neighbouring
    other points and asks for the sign of the product.  With an area margin every
    computed area has the sign of the exact one and the products neither
    underflow nor overflow, so the run in doubles takes the decisions of the run
    over the reals. *)
From Coq Require Import ZArith List Bool String Reals Lra Lia Psatz Permutation.
From Flocq Require Import Core BinarySingleNaN.
From Verif Require Import Base Types NumR NumF R_Tac Spec Spec2 Abs M_Angle M_Vector M_Line M_Triangle M_Segment M_Polygon
  L_Angle P_Vector P_Line L_Seg P_Segment P_Triangle P_Polygon P_Polygon2 M_Hull P_Hull P_Hull2 P_Hull3 P_Hull4 P_Graham L_Float P_Float P_Grid P_Grid2 P_HullF P_Robust P_HullRobust P_VecF P_GrahamF.
Import ListNotations.
Local Open Scope R_scope.

(** [a] and [b] are input points and all the other input points are strictly
    on the right of the line from [a] to [b]: a side of the hull, clockwise. *)
Definition fright_edge (pts : list (vec F)) (a b : vec F) : Prop :=
  In a pts /\ In b pts /\ a <> b /\ forall c, In c pts -> c <> a -> c <> b -> side (fpt a) (fpt b) (fpt c) < 0.
Definition fsegs (E : list (vec F * vec F)) : list (seg F) := map (fun e => Segment2D_of_points (fst e) (snd e)) E.

(** a computed area and the exact one: the same sign, and not tiny unless zero *)
Definition like (k : Z) (x : F) (y : R) : Prop := is_finite x = true /\ Rabs (B2R x) <= bpow radix2 (2 * k + 3) /\
  ((B2R x = 0 /\ y = 0) \/ (1 / 1000000 <= B2R x /\ 0 < y) \/ (B2R x <= - (1 / 1000000) /\ y < 0)).
Lemma outer_like L k a b p : (-500 <= k <= 240)%Z -> within k a -> within k b -> within k p ->
  Rabs (side (fpt a) (fpt b) (fpt p)) >= bpow radix2 (2 * k - 49) + 1 / 999999 ->
  like k (@Vector2D_outer_product F (NumF L) (@Vector2D_sub F (NumF L) b a) (@Vector2D_sub F (NumF L) p a)) (side (fpt a) (fpt b) (fpt p)) /\
  @nltb F (NumF L) (@nabs F (NumF L) (@Vector2D_outer_product F (NumF L) (@Vector2D_sub F (NumF L) b a) (@Vector2D_sub F (NumF L) p a))) (@EPSILON F (NumF L)) = false.
Proof.
  intros Hk A B P M. destruct (outer_close L k b p a ltac:(lia) B P A) as (C1 & C2 & C3).
  change (@Vector2D_outer_product F (NumF L) (Vector2D_of_vec (@Vector2D_sub F (NumF L) b a)) (Vector2D_of_vec (@Vector2D_sub F (NumF L) p a)))
    with (@Vector2D_outer_product F (NumF L) (@Vector2D_sub F (NumF L) b a) (@Vector2D_sub F (NumF L) p a)) in *.
  set (o := @Vector2D_outer_product F (NumF L) _ _) in *. change (pt (rvec a)) with (fpt a) in C3. change (pt (rvec b)) with (fpt b) in C3. change (pt (rvec p)) with (fpt p) in C3.
  set (s := side _ _ _) in *. set (t := bpow radix2 (2 * k - 49)) in *.
  assert (G : (1 / 999999 <= B2R o /\ 0 < s) \/ (B2R o <= - (1 / 999999) /\ s < 0)).
  { assert (0 < t) by apply bpow_gt_0. revert M C3. unfold Rabs at 1 2. destruct (Rcase_abs s), (Rcase_abs (B2R o - s)); intros; first [left; lra|right; lra]. }
  split.
  - split; [exact C1|]. split; [exact C2|]. right. destruct G as [G|G]; [left|right]; lra.
  - cbn [nltb nabs NumF]. destruct (eps_tight L) as [E1 E2]. rewrite ltb_F; [|now rewrite is_finite_Babs|exact E1]. apply Rlt_bool_false. rewrite B2R_Babs.
    unfold Rabs. destruct Rcase_abs; lra.
Qed.
Lemma like_mult L k x y x' y' : (-100 <= k <= 240)%Z -> like k x y -> like k x' y' ->
  @nltb F (NumF L) (@nmul F (NumF L) x x') (@nlit F (NumF L) 0 1) = Rlt_bool (y * y') 0.
Proof.
  intros Hk (A1 & A2 & A3) (B1 & B2 & B3).
  assert (M : Rabs (B2R x * B2R x') <= bpow radix2 ((2 * k + 3) + (2 * k + 3))).
  { rewrite Rabs_mult, bpow_plus. apply Rmult_le_compat; auto using Rabs_pos. }
  destruct (rnd_err (B2R x * B2R x') ((2 * k + 3) + (2 * k + 3)) ltac:(lia) M) as [_ R2].
  destruct (F_mul x x' A1 B1) as [P1 P2]; [eapply finite_lt; [|exact R2]; lia|].
  cbn [nltb nmul NumF]. change (@nlit F (NumF L) 0 1) with (F_of_Z 0). destruct (F_of_Z_exact 0 eq_refl) as [Z1 Z2]. rewrite ltb_F, P1, Z1 by assumption.
  assert (T : 0 < bpow radix2 (-40) <= 1 / 1000000 * (1 / 1000000)) by (change (bpow radix2 (-40)) with (/ 1099511627776); lra).
  assert (FB : fmt64 (- bpow radix2 (-40))) by (apply generic_format_opp, fmt_bpow; lia).
  assert (N : B2R x * B2R x' <= - bpow radix2 (-40) -> Rlt_bool (rnd64 (B2R x * B2R x')) 0 = true).
  { intros K. apply Rlt_bool_true. apply rnd_le in K. rewrite (rnd_id _ FB) in K. lra. }
  assert (NN : 0 <= B2R x * B2R x' -> Rlt_bool (rnd64 (B2R x * B2R x')) 0 = false).
  { intros K. apply Rlt_bool_false. apply rnd_le in K. rewrite (rnd_id 0) in K by apply generic_format_0. lra. }
  destruct A3 as [[X Y]|[[X Y]|[X Y]]], B3 as [[X' Y']|[[X' Y']|[X' Y']]].
  all: first [rewrite NN by nra; symmetry; apply Rlt_bool_false; nra|rewrite N by nra; symmetry; apply Rlt_bool_true; nra].
Qed.
Lemma like_neg L k x y : like k x y -> @nltb F (NumF L) x (@nlit F (NumF L) 0 1) = Rlt_bool y 0.
Proof.
  intros (A1 & _ & A3). cbn [nltb NumF]. change (@nlit F (NumF L) 0 1) with (F_of_Z 0). destruct (F_of_Z_exact 0 eq_refl) as [Z1 Z2]. rewrite ltb_F, Z1 by assumption.
  destruct A3 as [[X Y]|[[X Y]|[X Y]]]; [rewrite !Rlt_bool_false by lra|rewrite !Rlt_bool_false by lra|rewrite !Rlt_bool_true by lra]; reflexivity.
Qed.
Lemma scan_F L k a b i j l : (-100 <= k <= 240)%Z -> within k a -> within k b -> Forall (within k) l -> forall n lf lr,
  (forall m p, nth_error l m = Some p -> (n + m)%nat <> i -> (n + m)%nat <> j -> Rabs (side (fpt a) (fpt b) (fpt p)) >= bpow radix2 (2 * k - 49) + 1 / 999999) ->
  like k lf lr ->
  let rf := @direct_scan F (NumF L) a (@Vector2D_sub F (NumF L) b a) i j n l lf in
  let rr := direct_scan (rvec a) (Vector2D_sub (rvec b) (rvec a)) i j n (map rvec l) lr in
  fst rf = fst rr /\ like k (snd rf) (snd rr).
Proof.
  intros Hk A B. induction l as [|p l IH]; intros W n lf lr M HL; cbv zeta; [split; [reflexivity|exact HL]|]. inversion W as [|? ? W1 W2]; subst.
  assert (M' : forall m p, nth_error l m = Some p -> (S n + m)%nat <> i -> (S n + m)%nat <> j -> Rabs (side (fpt a) (fpt b) (fpt p)) >= bpow radix2 (2 * k - 49) + 1 / 999999).
  { intros m q E N1 N2. apply (M (S m) q E); lia. }
  cbn [direct_scan map]. destruct (Nat.eqb n i || Nat.eqb n j) eqn:EQ; [apply IH; assumption|].
  apply orb_false_elim in EQ. rewrite !Nat.eqb_neq in EQ.
  assert (MP := M 0%nat p eq_refl ltac:(lia) ltac:(lia)).
  destruct (outer_like L k a b p ltac:(lia) A B W1 MP) as [O1 O2]. rewrite O2. cbn [andb].
  rewrite outer_side. change (pt (rvec a)) with (fpt a). change (pt (rvec b)) with (fpt b). change (pt (rvec p)) with (fpt p).
  replace (nltb (nabs (side (fpt a) (fpt b) (fpt p))) EPSILON) with false.
  2: { symmetry. unfold EPSILON. rnum. apply Rlt_bool_false. pose proof (bpow_gt_0 radix2 (2 * k - 49)). lra. }
  cbn [andb]. rewrite (like_mult L k _ _ _ _ Hk O1 HL).
  change (nltb (nmul (side (fpt a) (fpt b) (fpt p)) lr) (num 0)) with (Rlt_bool (side (fpt a) (fpt b) (fpt p) * lr) 0).
  destruct (Rlt_bool _ 0); [split; [reflexivity|exact HL]|]. apply IH; assumption.
Qed.

Lemma list2set_acc L l : Forall finv l -> forall acc, Forall finv acc ->
  let r := fold_left (fun sub item => if @vec_in F (NumF L) item sub then sub else sub ++ [item]) l acc in
  map rvec r = fold_left (fun sub item => if vec_in item sub then sub else sub ++ [item]) (map rvec l) (map rvec acc) /\ incl r (acc ++ l).
Proof.
  intros FV. induction l as [|v l IH]; intros acc FA; cbn [fold_left map]; [rewrite app_nil_r; split; [reflexivity|apply incl_refl]|].
  inversion FV as [|? ? V1 V2]; subst. specialize (IH V2).
  assert (EV : @vec_in F (NumF L) v acc = vec_in (rvec v) (map rvec acc)).
  { clear IH. unfold vec_in. induction acc as [|w acc IH]; [reflexivity|]. inversion FA as [|? ? X1 X2]; subst. cbn [existsb map]. rewrite (veq_fin L w v X1 V1), (IH X2). reflexivity. }
  rewrite <- EV. destruct (@vec_in F (NumF L) v acc).
  - destruct (IH acc FA) as [I1 I2]. split; [exact I1|]. intros x Hx. apply I2 in Hx. rewrite in_app_iff in *. cbn. tauto.
  - destruct (IH (acc ++ [v])) as [I1 I2]; [apply Forall_app; split; [exact FA|now constructor]|]. rewrite map_app in I1. split; [exact I1|].
    intros x Hx. apply I2 in Hx. now rewrite <- app_assoc in Hx.
Qed.
Lemma list2set_map L l : Forall finv l -> map rvec (@list2set F (NumF L) l) = list2set (map rvec l) /\ incl (@list2set F (NumF L) l) l.
Proof. intros FV. exact (list2set_acc L l FV [] (Forall_nil _)). Qed.
Section DF.
  Variables (L : libm) (k : Z) (pts : list (vec F)).
  Hypothesis Hk : (-100 <= k <= 240)%Z.
  Hypothesis W : Forall (within k) pts.
  Hypothesis ND : NoDup (map fpt pts).
  Hypothesis M : forall a b c, In a pts -> In b pts -> In c pts -> fpt a <> fpt b -> fpt b <> fpt c -> fpt a <> fpt c ->
    Rabs (side (fpt a) (fpt b) (fpt c)) >= bpow radix2 (2 * k - 49) + 1 / 999999.
  Let d : vec F := mkVec (F_of_Z 0) (F_of_Z 0) true.
  Let P i := nth i pts d.
  Lemma idx_inj i j : (i < List.length pts)%nat -> (j < List.length pts)%nat -> fpt (P i) = fpt (P j) -> i = j.
  Proof.
    intros Hi Hj E. assert (ND' := ND). rewrite NoDup_nth with (d := fpt d) in ND'. apply ND'; [now rewrite map_length|now rewrite map_length|].
    now rewrite !map_nth.
  Qed.
  Definition rpair (e : vec F * vec F) : vec R * vec R := (rvec (fst e), rvec (snd e)).
  Lemma step_F i j vs es : (i < j)%nat -> (j < List.length pts)%nat -> exists V E,
    @direct_step F (NumF L) pts (Ok (vs, es)) (i, j) = Ok (vs ++ V, es ++ fsegs E) /\
    (forall vr er, direct_step (map rvec pts) (Ok (vr, er)) (i, j) = Ok (vr ++ map rvec V, er ++ segs (map rpair E))) /\
    (forall a b, In (a, b) E -> In a pts /\ In b pts) /\ (forall v, In v V <-> exists w, In (v, w) E \/ In (w, v) E).
  Proof.
    intros Hij Hj. assert (Hi : (i < List.length pts)%nat) by lia. rewrite Forall_forall in W.
    assert (Ii : In (P i) pts) by now apply nth_In. assert (Ij : In (P j) pts) by now apply nth_In.
    assert (Wi := W _ Ii). assert (Wj := W _ Ij).
    destruct (scan_F L k (P i) (P j) i j pts Hk Wi Wj ltac:(now apply Forall_forall) 0%nat (@nlit F (NumF L) 0 1) 0) as [S1 S2].
    { intros m p E N1 N2. cbn [plus] in *. assert (Hm : (m < List.length pts)%nat) by (apply nth_error_Some; congruence).
      assert (p = P m) as -> by (symmetry; now apply nth_error_nth). apply M; try assumption; [now apply nth_In| | |]; intros K; apply idx_inj in K; lia. }
    { change (@nlit F (NumF L) 0 1) with (F_of_Z 0). destruct (F_of_Z_exact 0 eq_refl) as [Z1 Z2]. split; [exact Z2|]. rewrite Z1, Rabs_R0. split; [apply bpow_ge_0|]. left. split; reflexivity. }
    cbv zeta in S1, S2.
    set (rf := @direct_scan F (NumF L) (P i) _ i j 0 pts (@nlit F (NumF L) 0 1)) in *.
    set (rr := direct_scan (rvec (P i)) _ i j 0 (map rvec pts) 0) in *.
    set (E := if fst rf then [if Rlt_bool (snd rr) 0 then (P i, P j) else (P j, P i)] else []).
    exists (if fst rf then [P i; P j] else []), E.
    assert (GF : @direct_step F (NumF L) pts (Ok (vs, es)) (i, j) = if fst rf then Ok (vs ++ [P i; P j], es ++ [if @nltb F (NumF L) (snd rf) (@nlit F (NumF L) 0 1) then Segment2D_of_points (P i) (P j) else Segment2D_of_points (P j) (P i)]) else Ok (vs, es)).
    { cbn [direct_step bind]. rewrite (py_get_nth pts i d Hi), (py_get_nth pts j d Hj). cbn [bind]. fold (P i) (P j).
      change (@direct_scan F (NumF L) (P i) (@Vector2D_sub F (NumF L) (P j) (P i)) i j 0 pts (num 0)) with rf. destruct rf. reflexivity. }
    assert (GR : forall vr er, direct_step (map rvec pts) (Ok (vr, er)) (i, j) = if fst rr then Ok (vr ++ [rvec (P i); rvec (P j)], er ++ [if Rlt_bool (snd rr) 0 then Segment2D_of_points (rvec (P i)) (rvec (P j)) else Segment2D_of_points (rvec (P j)) (rvec (P i))]) else Ok (vr, er)).
    { intros vr er. cbn [direct_step bind]. rewrite (py_get_nth (map rvec pts) i (rvec d)), (py_get_nth (map rvec pts) j (rvec d)) by (rewrite map_length; assumption). cbn [bind].
      rewrite !map_nth. fold (P i) (P j).
      change (direct_scan (rvec (P i)) (Vector2D_sub (rvec (P j)) (rvec (P i))) i j 0 (map rvec pts) (num 0)) with rr. destruct rr. reflexivity. }
    split; [|split; [|split]].
    - rewrite GF, (like_neg L k _ _ S2). unfold E. destruct (fst rf); [|now rewrite !app_nil_r]. destruct (Rlt_bool (snd rr) 0); reflexivity.
    - intros vr er. rewrite GR, <- S1. unfold E. destruct (fst rf); [|now rewrite !app_nil_r]. destruct (Rlt_bool (snd rr) 0); reflexivity.
    - unfold E. destruct (fst rf); [|easy]. intros a b [K|[]]. destruct (Rlt_bool (snd rr) 0); injection K as <- <-; auto.
    - intros v. unfold E. destruct (fst rf).
      + split.
        * intros [<-|[<-|[]]]; [exists (P j)|exists (P i)]; destruct (Rlt_bool (snd rr) 0); cbn; auto.
        * intros (w & [[K|[]]|[K|[]]]); destruct (Rlt_bool (snd rr) 0); injection K as <- <-; cbn; auto.
      + split; [easy|]. intros (w & [[]|[]]).
  Qed.
  Lemma fold_F pl : (forall i j, In (i, j) pl -> (i < j)%nat /\ (j < List.length pts)%nat) -> forall vs es, exists V E,
    fold_left (@direct_step F (NumF L) pts) pl (Ok (vs, es)) = Ok (vs ++ V, es ++ fsegs E) /\
    (forall vr er, fold_left (direct_step (map rvec pts)) pl (Ok (vr, er)) = Ok (vr ++ map rvec V, er ++ segs (map rpair E))) /\
    (forall a b, In (a, b) E -> In a pts /\ In b pts) /\ (forall v, In v V <-> exists w, In (v, w) E \/ In (w, v) E).
  Proof.
    induction pl as [|[i j] pl IH]; intros HL vs es.
    - exists [], []. cbn. rewrite !app_nil_r. split; [easy|]. split; [intros; now rewrite !app_nil_r|]. split; [easy|]. intros v. split; [easy|]. intros (w & [[]|[]]).
    - destruct (HL i j (or_introl eq_refl)) as [H1 H2]. destruct (step_F i j vs es H1 H2) as (V1 & E1 & A1 & B1 & C1 & D1).
      destruct (IH (fun i j H => HL i j (or_intror H)) (vs ++ V1) (es ++ fsegs E1)) as (V2 & E2 & A2 & B2 & C2 & D2).
      exists (V1 ++ V2), (E1 ++ E2). cbn [fold_left]. rewrite A1, A2. unfold fsegs, segs in *. rewrite !map_app, !app_assoc. split; [easy|]. split; [|split].
      + intros vr er. rewrite B1, B2, ?map_app, ?app_assoc. reflexivity.
      + intros a b K. apply in_app_iff in K. destruct K; auto.
      + intros v. rewrite in_app_iff, D1, D2. split.
        * intros [(w & [K|K])|(w & [K|K])]; exists w; rewrite !in_app_iff; auto.
        * intros (w & [K|K]); apply in_app_iff in K; destruct K; eauto.
  Qed.
End DF.

Lemma NoDup_map_on {A B} (f : A -> B) (l : list A) : (forall x y, In x l -> In y l -> f x = f y -> x = y) -> NoDup l -> NoDup (map f l).
Proof.
  induction l as [|x l IH]; intros I N; cbn [map]; [constructor|]. inversion N as [|? ? N1 N2]; subst. constructor.
  - intros K. apply in_map_iff in K. destruct K as (y & E & Hy). apply N1. replace x with y; [assumption|]. apply I; [now right|now left|assumption].
  - apply IH; [|assumption]. intros y z Hy Hz. apply I; now right.
Qed.
Lemma incl_map_pre {A B} (f : A -> B) (l : list A) (m : list B) : incl m (map f l) -> exists m', incl m' l /\ m = map f m'.
Proof.
  induction m as [|x m IH]; intros I; [exists []; split; [easy|reflexivity]|]. destruct IH as (m' & I1 & I2); [intros y Hy; apply I; now right|].
  destruct (proj1 (in_map_iff f l x) (I x (or_introl eq_refl))) as (y & E & Hy). exists (y :: m'). split; [intros z [<-|Hz]; auto|]. cbn. now rewrite E, I2.
Qed.

(** C141: on points whose coordinates are at most 2^k in magnitude, distinct as
    points and with every triple spanning an area above the margin, the direct
    method run in doubles finds exactly the sides of the hull, directed clockwise;
    its vertices are exactly their ends, each listed once, and these ends are, in
    a suitable order, a strictly convex polygon that has every other input point
    strictly inside.  The only thing asked of the sort is that on lists of input
    points it returns a rearrangement. *)
Theorem C141_direct_margin_F : forall (L : libm) (k : Z) (pts : list (vec F)) sorter, (-100 <= k <= 240)%Z -> Forall (within k) pts ->
  (forall l, incl l pts -> exists l', sorter l = Ok l' /\ Permutation l l') -> (3 <= List.length pts)%nat -> NoDup (map fpt pts) ->
  (forall a b c, In a pts -> In b pts -> In c pts -> fpt a <> fpt b -> fpt b <> fpt c -> fpt a <> fpt c ->
     Rabs (side (fpt a) (fpt b) (fpt c)) >= bpow radix2 (2 * k - 49) + 1 / 999999) ->
  exists vs E, @ConvexHull_compute F (NumF L) sorter DIRECT_METHOD (ConvexHull_init pts) = Ok (mkHull pts vs (fsegs E) false) /\
    NoDup (map fpt vs) /\ NoDup E /\
    (forall a b, In (a, b) E <-> fright_edge pts a b) /\
    (forall v, In v vs <-> exists w, In (v, w) E \/ In (w, v) E) /\
    exists ws, (3 <= List.length ws)%nat /\ incl ws pts /\ (forall v, In v vs <-> In v ws) /\ strictly_convex (map fpt ws) /\
      (forall p, In p pts -> In p vs \/ strictly_inside (map fpt ws) (fpt p)).
Proof.
  intros L k pts sorter Hk W SO Hn ND M.
  set (rp := map rvec pts). assert (ERP : map pt rp = map fpt pts) by (unfold rp; rewrite map_map; reflexivity).
  assert (LRP : (3 <= List.length rp)%nat) by (unfold rp; now rewrite map_length).
  assert (GP : general_position (map pt rp)).
  { rewrite ERP. split; [exact ND|]. intros A B C IA IB IC N1 N2 N3. apply in_map_iff in IA, IB, IC. destruct IA as (a & <- & IA), IB as (b & <- & IB), IC as (c & <- & IC).
    specialize (M a b c IA IB IC N1 N2 N3). pose proof (bpow_gt_0 radix2 (2 * k - 49)). lra. }
  assert (FV : forall v, In v pts -> finv v) by (intros v Hv; rewrite Forall_forall in W; destruct (W v Hv) as (F1 & F2 & _); split; assumption).
  pose proof (fpt_inj pts ND) as FI.
  assert (RI : forall a b, In a pts -> In b pts -> rvec a = rvec b -> a = b) by (intros a b A B E; apply FI; try assumption; exact (f_equal pt E)).
  assert (RIN : forall v, In v pts -> forall l, incl l pts -> (In (rvec v) (map rvec l) <-> In v l)).
  { intros v Hv l I. split; [|apply in_map]. intros K. apply in_map_iff in K. destruct K as (u & E & Hu). replace v with u; [assumption|]. apply RI; auto. }
  destruct (C102_direct_R rp (fun l => Ok l) LRP GP) as (vr & E & C1 & C2 & C3 & C4 & C5); [intros l; exists l; split; [reflexivity|apply Permutation_refl]|].
  destruct (C75_convex_hull_R rp (fun l => Ok l) LRP GP) as (ws & es & W1 & W2 & W3 & W4 & W5 & _).
  specialize (C5 _ _ _ W1).
  assert (DP : forall i j, In (i, j) (direct_pairs (List.length pts)) -> (i < j)%nat /\ (j < List.length pts)%nat).
  { intros i j. pose proof (direct_pairs_in rp LRP i j) as K. unfold rp in K. rewrite map_length in K. apply K. }
  destruct (fold_F L k pts Hk W ND M (direct_pairs (List.length pts)) DP [] []) as (V & EF & F1 & F2 & F3 & F4).
  cbn [app] in F1. specialize (F2 [] []). cbn [app] in F2.
  assert (IV : incl V pts) by (intros v Hv; apply F4 in Hv; destruct Hv as (w & [Hv|Hv]); apply F3 in Hv; tauto).
  (* the run over the reals *)
  assert (CR : ConvexHull_compute (fun l => Ok l) DIRECT_METHOD (ConvexHull_init rp) = match V with [] => Ok (mkHull rp [] (segs (map rpair EF)) false) | _ => Ok (mkHull rp (list2set (map rvec V)) (segs (map rpair EF)) false) end).
  { cbn [ConvexHull_compute]. unfold compute_direct_method. change (h_input (clear_results (ConvexHull_init rp))) with rp.
    replace (Nat.ltb (List.length rp) 3) with false by (symmetry; apply Nat.ltb_ge; lia). unfold rp at 1 2. rewrite map_length, F2. cbn [bind]. now destruct V. }
  rewrite CR in C1.
  assert (NV : V <> []).
  { intros K. rewrite K in C1. injection C1 as E1 _. destruct ws as [|w ws]; [cbn in W2; lia|]. specialize (C5 w). rewrite <- E1 in C5. apply C5. now left. }
  assert (C1' : list2set (map rvec V) = vr /\ segs (map rpair EF) = segs E) by (destruct V; [easy|]; injection C1 as X Y; now split). clear C1. destruct C1' as [EV EE].
  destruct (SO V IV) as (V' & S1 & S2).
  assert (IV' : incl V' pts) by (intros v Hv; apply IV; now apply (Permutation_in _ (Permutation_sym S2))).
  destruct (list2set_map L V') as [T1 T2]; [apply Forall_forall; auto|].
  destruct (C78_list2set_R (map rvec V')) as (L1 & _ & L3 & _). rewrite <- T1, !map_map in L1, L3. change (fun x => pt (rvec x)) with fpt in *.
  assert (FIN : forall v, In v pts -> forall l, incl l pts -> (In (fpt v) (map fpt l) <-> In v l)).
  { intros v Hv l I. split; [|apply in_map]. intros K. apply in_map_iff in K. destruct K as (u & X & Hu). replace v with u; [assumption|]. apply FI; auto. }
  set (vs := @list2set F (NumF L) V') in *.
  assert (IVS : incl vs pts) by (intros v Hv; auto).
  assert (MV : forall v, In v vs <-> In v V).
  { intros v. split.
    - intros Hv. apply (Permutation_in _ (Permutation_sym S2)). now apply T2.
    - intros Hv. assert (In v pts) by auto. apply (FIN v H vs IVS). apply L3. rewrite map_map. apply (in_map fpt). now apply (Permutation_in _ S2). }
  (* the pairs of points of the edges over the reals and in doubles *)
  set (pe := fun e : vec R * vec R => (pt (fst e), pt (snd e))). set (fe := fun e : vec F * vec F => (fpt (fst e), fpt (snd e))).
  assert (EP : map fe EF = map pe E).
  { assert (G : forall X, map (fun s : seg R => (pt (s_origin s), pt (s_terminal s))) (segs X) = map pe X) by (intros X; unfold segs; rewrite map_map; reflexivity).
    rewrite <- (G E), <- EE, G, map_map. reflexivity. }
  assert (PI : forall a b, In a rp -> In b rp -> pt a = pt b -> a = b).
  { intros a b A B X. apply in_map_iff in A, B. destruct A as (a' & <- & A), B as (b' & <- & B). f_equal. now apply FI. }
  assert (EIN : forall a b, In a pts -> In b pts -> (In (a, b) EF <-> right_edge rp (rvec a) (rvec b))).
  { intros a b A B. rewrite <- C4. split.
    - intros K. apply (in_map fe) in K. rewrite EP in K. apply in_map_iff in K. destruct K as ([a' b'] & X & K). injection X as X1 X2 X3 X4.
      assert (R := proj1 (C4 a' b') K). destruct R as (R1 & R2 & _). assert (a' = rvec a) as <- by (apply PI; [assumption|now apply in_map|unfold pt; cbn [vx vy rvec]; now rewrite X1, X2]). assert (b' = rvec b) as <- by (apply PI; [assumption|now apply in_map|unfold pt; cbn [vx vy rvec]; now rewrite X3, X4]). assumption.
    - intros K. apply (in_map pe) in K. rewrite <- EP in K. apply in_map_iff in K. destruct K as ([a' b'] & X & K). injection X as X1 X2 X3 X4. destruct (F3 _ _ K) as [A' B'].
      assert (a' = a) as <- by (apply FI; try assumption; unfold fpt; now rewrite X1, X2). assert (b' = b) as <- by (apply FI; try assumption; unfold fpt; now rewrite X3, X4). assumption. }
  exists vs, EF. split; [|split; [exact L1|split; [|split; [|split]]]].
  - cbn [ConvexHull_compute]. unfold compute_direct_method. change (h_input (clear_results (ConvexHull_init pts))) with pts.
    replace (Nat.ltb (List.length pts) 3) with false by (symmetry; apply Nat.ltb_ge; lia). rewrite F1. cbn [bind]. destruct V as [|v V]; [easy|]. now rewrite S1.
  - apply (NoDup_map_inv fe). rewrite EP. apply NoDup_map_on; [|exact C3]. intros [a b] [a' b'] A B X. apply C4 in A, B. destruct A as (A1 & A2 & _), B as (B1 & B2 & _).
    injection X as X1 X2 X3 X4. f_equal; apply PI; try assumption; unfold pt; congruence.
  - intros a b. split.
    + intros K. destruct (F3 a b K) as [A B]. apply EIN in K; [|assumption|assumption]. destruct K as (_ & _ & N & K). split; [assumption|]. split; [assumption|]. split; [congruence|].
      intros c Hc N1 N2. apply (K (rvec c)); [now apply in_map| |]; intros X; [apply N1|apply N2]; now apply RI.
    + intros (A & B & N & K). apply EIN; [assumption|assumption|]. split; [now apply in_map|]. split; [now apply in_map|]. split; [intros X; apply N; now apply RI|].
      intros c Hc N1 N2. apply in_map_iff in Hc. destruct Hc as (c' & <- & Hc). apply K; [assumption| |]; congruence.
  - intros v. rewrite MV. apply F4.
  - destruct (incl_map_pre rvec pts ws W3) as (wf & I1 & I2). exists wf. rewrite I2, map_map in W4. change (fun x => pt (rvec x)) with fpt in W4.
    assert (VW : forall v, In v vs <-> In v wf).
    { intros v. destruct (C78_list2set_R (map rvec V)) as (_ & L2 & L4 & _). rewrite EV in L2, L4. split.
      - intros Hv. assert (Hp : In v pts) by auto. apply MV in Hv. apply (RIN v Hp wf I1). rewrite <- I2. apply C5.
        assert (K : In (pt (rvec v)) (map pt vr)) by (apply L4; now apply in_map, in_map). apply in_map_iff in K. destruct K as (u & X & Hu). assert (Ru : In u rp) by (apply W3, C5, Hu). replace (rvec v) with u; [assumption|]. apply PI; [assumption|now apply in_map|assumption].
      - intros Hv. assert (Hp : In v pts) by auto. apply MV. apply (in_map rvec) in Hv. rewrite <- I2 in Hv. apply C5 in Hv. apply L2 in Hv. now apply (RIN v Hp V IV). }
    rewrite I2, map_length in W2. split; [exact W2|]. split; [exact I1|]. split; [exact VW|]. split; [exact W4|].
    intros p Hp. destruct (W5 (rvec p) ltac:(now apply in_map)) as [K|K].
    + left. apply VW. apply (RIN p Hp wf I1). now rewrite <- I2.
    + right. rewrite I2, map_map in K. exact K.
Qed.

(** CPython's own sort qualifies as soon as the comparison does not raise. *)
Section SortTotal.
  Context {T : Type} (lt : vec T -> vec T -> res bool) (S0 : vec T -> Prop).
  Hypothesis OK : forall u v, S0 u -> S0 v -> exists b, lt u v = Ok b.
  Lemma bin_insert_total l x f : (forall v, In v l -> S0 v) -> S0 x -> forall lo hi, (hi <= List.length l)%nat -> exists k, bin_insert_pos lt f l x lo hi = Ok k.
  Proof.
    intros SL SX. induction f as [|f IH]; intros lo hi Hh; cbn [bin_insert_pos]; [eauto|]. destruct (Nat.ltb_spec lo hi); [|eauto].
    assert (HM : (Nat.div (lo + hi) 2 < hi)%nat) by (apply Nat.div_lt_upper_bound; lia).
    destruct (nth_error l (Nat.div (lo + hi) 2)) as [y|] eqn:E; [|apply nth_error_None in E; lia].
    destruct (OK x y SX (SL y (nth_error_In _ _ E))) as [b Eb]. rewrite Eb. cbn [bind]. destruct b; apply IH; lia.
  Qed.
  Lemma bin_sort_total rest : (forall v, In v rest -> S0 v) -> forall sorted, (forall v, In v sorted -> S0 v) -> exists l', bin_sort lt sorted rest = Ok l'.
  Proof.
    induction rest as [|x rest IH]; intros SR sorted SS; cbn [bin_sort]; [eauto|].
    destruct (bin_insert_total sorted x (S (List.length sorted)) SS (SR x (or_introl eq_refl)) 0 (List.length sorted) ltac:(lia)) as [k E]. rewrite E. cbn [bind]. apply IH; [intros v Hv; apply SR; now right|].
    intros v Hv. rewrite !in_app_iff in Hv. destruct Hv as [Hv|Hv].
    - apply SS. rewrite <- (firstn_skipn k sorted). apply in_app_iff. now left.
    - destruct Hv as [<-|Hv]; [apply SR; now left|]. apply SS. rewrite <- (firstn_skipn k sorted). apply in_app_iff. now right.
  Qed.
  Lemma run_from_total b l : (forall v, In v l -> S0 v) -> forall prev, S0 prev -> exists r1 r2, run_from lt b prev l = Ok (r1, r2) /\ l = r1 ++ r2.
  Proof.
    induction l as [|x l IH]; intros SL prev SP; cbn [run_from]; [exists [], []; split; reflexivity|].
    destruct (OK x prev (SL x (or_introl eq_refl)) SP) as [c E]. rewrite E. cbn [bind].
    destruct (Bool.eqb c b); [|exists [], (x :: l); split; reflexivity]. destruct (IH (fun v Hv => SL v (or_intror Hv)) x (SL x (or_introl eq_refl))) as (r1 & r2 & E2 & E3). rewrite E2. cbn [bind]. exists (x :: r1), r2. split; [reflexivity|]. cbn. now rewrite E3.
  Qed.
  Lemma py_sort_small_total l : (forall v, In v l -> S0 v) -> exists l', py_sort_small lt l = Ok l' /\ Permutation l l'.
  Proof.
    intros SL. assert (exists l', py_sort_small lt l = Ok l') as [l' E].
    { destruct l as [|x [|y l]]; cbn [py_sort_small]; [eauto|eauto|]. destruct (OK y x) as [b E]; [apply SL; cbn; auto|apply SL; cbn; auto|]. rewrite E. cbn [bind].
      destruct (run_from_total b l (fun v Hv => SL v (or_intror (or_intror Hv))) y) as (r1 & r2 & E2 & E3); [apply SL; cbn; auto|]. rewrite E2. cbn [bind].
      assert (S1 : forall v, In v (x :: y :: r1) -> S0 v) by (intros v Hv; apply SL; subst l; cbn in Hv |- *; rewrite in_app_iff; tauto).
      apply bin_sort_total.
      - intros v Hv. apply SL. subst l. cbn. rewrite in_app_iff. tauto.
      - intros v Hv. destruct b; [apply in_rev in Hv|]; now apply S1. }
    exists l'. split; [easy|]. now apply (py_sort_small_perm lt).
  Qed.
End SortTotal.
Lemma angle_lt_total L k u v : pow_accurate L -> (-500 <= k <= 450)%Z -> within k u -> within k v -> exists b, @angle_lt F (NumF L) u v = Ok b.
Proof.
  intros PA Hk WU WV. unfold angle_lt, angle_sort_predicate.
  match goal with |- context [@Vector2D_dist2 F (NumF L) ?b u] => set (o := b) end.
  assert (O : within k o).
  { unfold o. destruct (F_of_Z_exact 0 eq_refl) as [Z1 Z2]. unfold within. cbn [vx vy V]. change (@nlit F (NumF L) 0 1) with (F_of_Z 0). rewrite Z1, Rabs_R0. repeat split; try exact Z2; apply bpow_ge_0. }
  assert (D : forall w, within k w -> exists q, @Vector2D_dist2 F (NumF L) o w = Ok q).
  { intros w Hw. pose proof O as (O1 & O2 & _). pose proof Hw as (W1 & W2 & _). destruct (dist2_abs L o w PA O1 O2 W1 W2) as (q & Q & _); [|now exists q].
    eapply Rle_trans; [exact (edist_up k o w O Hw)|]. apply bpow_le. lia. }
  destruct (D u WU) as (qu & ->). destruct (D v WV) as (qv & ->). cbn [bind]. repeat match goal with |- context [if ?c then _ else _] => destruct c end; cbn [bind]; eauto.
Qed.

Example C141_nonvacuous : let pts := [fv 1 (-3); fv 3 (-1); fv 1 (-1); fv 0 0] in
  Forall (within 2) pts /\ (forall l, incl l pts -> exists l', @py_sort_small F (@angle_lt F (NumF libm_sq)) l = Ok l' /\ Permutation l l') /\ (3 <= List.length pts)%nat /\ NoDup (map fpt pts) /\
  (forall a b c, In a pts -> In b pts -> In c pts -> fpt a <> fpt b -> fpt b <> fpt c -> fpt a <> fpt c ->
     Rabs (side (fpt a) (fpt b) (fpt c)) >= bpow radix2 (2 * 2 - 49) + 1 / 999999).
Proof.
  intros pts. destruct C140_nonvacuous as (P & A & _ & B & C & D & _). split; [exact A|]. split; [|split; [exact B|split; [exact C|exact D]]].
  intros l I. apply (py_sort_small_total _ (within 2)).
  - intros u v U V. apply (angle_lt_total libm_sq 2); try assumption. lia.
  - intros v Hv. rewrite Forall_forall in A. now apply A, I.
Qed.
