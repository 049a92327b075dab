(** * P_Hull3: property C102 (the direct method) *)
From Coq Require Import ZArith List Bool String Reals Lra Lia Psatz Permutation Classical.
From Flocq Require Import Core.
From Verif Require Import Base Types NumR R_Tac Spec Spec2 Abs M_Vector M_Triangle M_Segment M_Polygon M_Hull
  P_Vector L_Seg P_Segment P_Polygon P_Polygon2 P_Polygon3 P_Hull P_Hull2.
Import ListNotations.
Local Open Scope R_scope.

Lemma outer_side (a b c : vec R) : Vector2D_outer_product (Vector2D_sub b a) (Vector2D_sub c a) = side (pt a) (pt b) (pt c).
Proof. unfold Vector2D_outer_product, Vector2D_sub, V, side, cross, psub, pt, px, py. rnum. cbn [vx vy fst snd]. ring. Qed.
(** the points of [l] (numbered from [k]) other than number i and number j *)
Fixpoint others (i j k : nat) (l : list (vec R)) : list (vec R) :=
  match l with
  | [] => []
  | p :: l' => if Nat.eqb k i || Nat.eqb k j then others i j (S k) l' else p :: others i j (S k) l'
  end.
Lemma in_others i j l : forall k p, In p (others i j k l) <-> exists m, nth_error l m = Some p /\ (k + m)%nat <> i /\ (k + m)%nat <> j.
Proof.
  induction l as [|q l IH]; intros k p; cbn [others].
  - split; [easy|]. intros ([|m] & E & _); discriminate.
  - assert (S1 : (exists m, nth_error l m = Some p /\ (S k + m)%nat <> i /\ (S k + m)%nat <> j) <-> exists m, nth_error (q :: l) (S m) = Some p /\ (k + S m)%nat <> i /\ (k + S m)%nat <> j).
    { split; intros (m & E & A & B); exists m; (split; [easy|]); lia. }
    destruct (Nat.eqb k i || Nat.eqb k j) eqn:EQ.
    + rewrite IH, S1. split; [intros (m & H); now exists (S m)|]. intros ([|m] & E & A & B); [|now exists m].
      exfalso. apply orb_true_iff in EQ. rewrite !Nat.eqb_eq in EQ. lia.
    + apply orb_false_elim in EQ. rewrite !Nat.eqb_neq in EQ. cbn [In]. rewrite IH, S1. split.
      * intros [<-|(m & H)]; [exists 0%nat; split; [easy|lia]|now exists (S m)].
      * intros ([|m] & E & A & B); [left; now injection E|right; now exists m].
Qed.
Section Scan.
  Variables (a b : vec R) (i j : nat).
  Let s (p : vec R) := side (pt a) (pt b) (pt p).
  Let big (l : list (vec R)) k := forall p, In p (others i j k l) -> Rabs (s p) >= 1/1000000.
  Lemma scan_step k p l last : big (p :: l) k -> Nat.eqb k i || Nat.eqb k j = false ->
    direct_scan a (Vector2D_sub b a) i j k (p :: l) last =
    if Rlt_bool (s p * last) 0 then (false, last) else direct_scan a (Vector2D_sub b a) i j (S k) l (s p).
  Proof.
    intros B E. cbn [direct_scan]. rewrite E, outer_side. fold (s p). cbv zeta.
    assert (BP : Rabs (s p) >= 1/1000000) by (apply B; cbn [others]; rewrite E; cbn; auto).
    replace (nltb (nabs (s p)) EPSILON) with false by (symmetry; unfold EPSILON; rnum; apply Rlt_bool_false; lra). reflexivity.
  Qed.
  Lemma scan_same sg l : sg * sg = 1 -> forall k last, big l k -> sg * last > 0 ->
    exists lv, (direct_scan a (Vector2D_sub b a) i j k l last = (true, lv) /\ sg * lv > 0 /\ forall p, In p (others i j k l) -> sg * s p > 0) \/
               (direct_scan a (Vector2D_sub b a) i j k l last = (false, lv) /\ exists p, In p (others i j k l) /\ sg * s p < 0).
  Proof.
    intros SG. induction l as [|p l IH]; intros k last B HL.
    - exists last. left. cbn. repeat split; easy.
    - destruct (Nat.eqb k i || Nat.eqb k j) eqn:E.
      + assert (EO : others i j k (p :: l) = others i j (S k) l) by (cbn [others]; now rewrite E). rewrite EO.
        cbn [direct_scan]. rewrite E. apply IH; [|easy]. intros q Hq. apply B. now rewrite EO.
      + assert (EO : others i j k (p :: l) = p :: others i j (S k) l) by (cbn [others]; now rewrite E). rewrite EO.
        rewrite scan_step by easy. assert (BP : Rabs (s p) >= 1/1000000) by (apply B; rewrite EO; cbn; auto).
        assert (NZ : s p <> 0) by (intros Z; rewrite Z, Rabs_R0 in BP; lra).
        destruct (Rlt_le_dec (sg * s p) 0) as [N|N].
        * exists last. right. rewrite Rlt_bool_true. 2: { replace (s p * last) with ((sg * sg) * (s p * last)) by (rewrite SG; ring). nra. }
          split; [easy|]. exists p. cbn; auto.
        * assert (P : sg * s p > 0). { destruct N as [N|N]; [lra|]. exfalso. apply NZ. replace (s p) with (sg * (sg * s p)) by (rewrite <- Rmult_assoc, SG; ring). rewrite <- N. ring. }
          rewrite Rlt_bool_false. 2: { replace (s p * last) with ((sg * sg) * (s p * last)) by (rewrite SG; ring). nra. }
          destruct (IH (S k) (s p)) as (lv & [(E1 & E2 & E3)|(E1 & q & E2 & E3)]); [intros q Hq; apply B; rewrite EO; now right|easy| |].
          -- exists lv. left. split; [easy|]. split; [easy|]. intros q [<-|Hq]; auto.
          -- exists lv. right. split; [easy|]. exists q. cbn; auto.
  Qed.
  Lemma scan_zero l : forall k, big l k -> others i j k l <> [] ->
    exists lv,
    (direct_scan a (Vector2D_sub b a) i j k l 0 = (true, lv) /\ lv > 0 /\ forall p, In p (others i j k l) -> s p > 0) \/
    (direct_scan a (Vector2D_sub b a) i j k l 0 = (true, lv) /\ lv < 0 /\ forall p, In p (others i j k l) -> s p < 0) \/
    (direct_scan a (Vector2D_sub b a) i j k l 0 = (false, lv) /\ exists p q, In p (others i j k l) /\ In q (others i j k l) /\ s p > 0 /\ s q < 0).
  Proof.
    induction l as [|p l IH]; intros k B NE; [easy|].
    destruct (Nat.eqb k i || Nat.eqb k j) eqn:E.
    - assert (EO : others i j k (p :: l) = others i j (S k) l) by (cbn [others]; now rewrite E). rewrite EO in *.
      cbn [direct_scan]. rewrite E. apply IH; [|easy]. intros q Hq. apply B. now rewrite EO.
    - assert (EO : others i j k (p :: l) = p :: others i j (S k) l) by (cbn [others]; now rewrite E). rewrite EO.
      rewrite scan_step by easy. rewrite Rlt_bool_false by lra. assert (BP : Rabs (s p) >= 1/1000000) by (apply B; rewrite EO; cbn; auto).
      assert (B' : big l (S k)) by (intros q Hq; apply B; rewrite EO; now right).
      destruct (Rlt_le_dec (s p) 0) as [N|N].
      + destruct (scan_same (-1) l ltac:(lra) (S k) (s p) B' ltac:(lra)) as (lv & [(E1 & E2 & E3)|(E1 & q & E2 & E3)]); exists lv; right.
        * left. split; [easy|]. split; [lra|]. intros q [<-|Hq]; [easy|]. specialize (E3 q Hq). lra.
        * right. split; [easy|]. exists q, p. cbn. repeat split; auto; lra.
      + destruct N as [N|N]; [|rewrite <- N, Rabs_R0 in BP; lra].
        destruct (scan_same 1 l ltac:(lra) (S k) (s p) B' ltac:(lra)) as (lv & [(E1 & E2 & E3)|(E1 & q & E2 & E3)]); exists lv.
        * left. split; [easy|]. split; [lra|]. intros q [<-|Hq]; [easy|]. specialize (E3 q Hq). lra.
        * right; right. split; [easy|]. exists p, q. cbn. repeat split; auto; lra.
  Qed.
End Scan.

(** [a] and [b] are input points and all the other input points are strictly
    on the right of the line from [a] to [b]: a side of the hull, clockwise. *)
Definition right_edge (pts : list (vec R)) (a b : vec R) : Prop :=
  In a pts /\ In b pts /\ a <> b /\ forall c, In c pts -> c <> a -> c <> b -> side (pt a) (pt b) (pt c) < 0.
Definition segs (E : list (vec R * vec R)) : list (seg R) := map (fun e => Segment2D_of_points (fst e) (snd e)) E.

Section Direct.
  Variables (pts : list (vec R)) (d : vec R).
  Hypothesis Hn : (3 <= List.length pts)%nat.
  Hypothesis GP : general_position (map pt pts).
  Let n := List.length pts.
  Let P i := nth i pts d.
  Lemma P_in i : (i < n)%nat -> In (P i) pts.
  Proof. apply nth_In. Qed.
  Lemma P_inj i j : (i < n)%nat -> (j < n)%nat -> pt (P i) = pt (P j) -> i = j.
  Proof.
    intros Hi Hj E. destruct GP as [ND _]. rewrite NoDup_nth with (d := pt d) in ND. apply ND; [now rewrite map_length|now rewrite map_length|].
    now rewrite !map_nth.
  Qed.
  Lemma P_ex c : In c pts -> exists k, (k < n)%nat /\ P k = c.
  Proof. intros H. apply (In_nth _ _ d) in H. exact H. Qed.
  Lemma pt_inj a b : In a pts -> In b pts -> pt a = pt b -> a = b.
  Proof. intros Ha Hb E. destruct (P_ex a Ha) as (i & Hi & <-), (P_ex b Hb) as (j & Hj & <-). f_equal. now apply P_inj. Qed.
  Lemma others_in i j c : (i < n)%nat -> (j < n)%nat -> (In c (others i j 0 pts) <-> In c pts /\ c <> P i /\ c <> P j).
  Proof.
    intros Hi Hj. rewrite in_others. cbn [plus]. split.
    - intros (m & E & A & B). assert (Hm : (m < n)%nat) by (apply nth_error_Some; congruence). assert (c = P m) as -> by (symmetry; now apply nth_error_nth).
      split; [now apply P_in|]. split; intros K; [apply A|apply B]; apply P_inj; auto; now rewrite K.
    - intros (H & A & B). destruct (P_ex c H) as (m & Hm & <-). exists m. split; [now apply nth_error_nth'|]. split; intros ->; easy.
  Qed.
  Lemma pair_step i j vs es : (i < j)%nat -> (j < n)%nat -> exists o,
    direct_step pts (Ok (vs, es)) (i, j) = Ok (vs ++ flat_map (fun _ => [P i; P j]) o, es ++ segs o) /\
    (List.length o <= 1)%nat /\
    (forall a b, In (a, b) o <-> right_edge pts a b /\ ((a = P i /\ b = P j) \/ (a = P j /\ b = P i))).
  Proof.
    intros Hij Hj. assert (Hi : (i < n)%nat) by lia. assert (Hne : P i <> P j) by (intros K; apply f_equal with (f := pt) in K; apply P_inj in K; lia).
    cbn [direct_step bind]. rewrite (py_get_nth pts i d Hi), (py_get_nth pts j d Hj). cbn [bind]. fold (P i) (P j).
    assert (BIG : forall c, In c (others i j 0 pts) -> Rabs (side (pt (P i)) (pt (P j)) (pt c)) >= 1/1000000).
    { intros c Hc. apply others_in in Hc; auto. destruct Hc as (Hc & A & B).
      apply (proj2 GP); [apply in_map, P_in; auto|apply in_map, P_in; auto|now apply in_map| | |]; intros K; apply pt_inj in K; auto using P_in. }
    assert (exists k, (k < n)%nat /\ k <> i /\ k <> j) as (k & Hk & Nki & Nkj).
    { assert (K : exists k, (k < 3)%nat /\ k <> i /\ k <> j); [|destruct K as (k & A & B); exists k; fold n in Hn; lia].
      destruct (Nat.eq_dec i 0), (Nat.eq_dec i 1), (Nat.eq_dec i 2), (Nat.eq_dec j 0), (Nat.eq_dec j 1), (Nat.eq_dec j 2); try lia; first [exists 0%nat; lia|exists 1%nat; lia|exists 2%nat; lia]. }
    assert (WIT : In (P k) (others i j 0 pts)).
    { apply others_in; auto. split; [now apply P_in|]. split; intros K; apply f_equal with (f := pt) in K; apply P_inj in K; auto. }
    assert (NE : others i j 0 pts <> []) by (intros K; rewrite K in WIT; easy).
    change (num 0 : R) with 0. 
    assert (FL : forall c, side (pt (P j)) (pt (P i)) c = - side (pt (P i)) (pt (P j)) c) by (intros; rewrite !side_level; ring).
    destruct (scan_zero (P i) (P j) i j pts 0 BIG NE) as (lv & [(E1 & E2 & E3)|[(E1 & E2 & E3)|(E1 & p & q & Hp & Hq & E2 & E3)]]); rewrite E1.
    - exists [(P j, P i)]. split; [|split; [cbn; lia|]].
      + cbn [flat_map app segs map fst snd]. replace (nltb lv 0) with false; [easy|]. symmetry. rnum. apply Rlt_bool_false. lra.
      + intros a b. split.
        * intros [[= <- <-]|[]]. split; [|auto]. split; [now apply P_in|]. split; [now apply P_in|]. split; [congruence|]. intros c Hc A B. rewrite FL. assert (side (pt (P i)) (pt (P j)) (pt c) > 0); [|lra]. apply E3. now apply others_in.
        * intros [(_ & _ & _ & H) [[-> ->]|[-> ->]]]; [|cbn; auto]. exfalso. apply others_in in WIT; auto. destruct WIT as (W1 & W2 & W3). specialize (H (P k) W1 W2 W3).
          assert (side (pt (P i)) (pt (P j)) (pt (P k)) > 0); [|lra]. apply E3. apply others_in; auto.
    - exists [(P i, P j)]. split; [|split; [cbn; lia|]].
      + cbn [flat_map app segs map fst snd]. replace (nltb lv 0) with true; [easy|]. symmetry. rnum. apply Rlt_bool_true. lra.
      + intros a b. split.
        * intros [[= <- <-]|[]]. split; [|auto]. split; [now apply P_in|]. split; [now apply P_in|]. split; [congruence|]. intros c Hc A B. apply E3. now apply others_in.
        * intros [(_ & _ & _ & H) [[-> ->]|[-> ->]]]; [cbn; auto|]. exfalso. apply others_in in WIT; auto. destruct WIT as (W1 & W2 & W3). specialize (H (P k) W1 W3 W2). rewrite FL in H.
          assert (side (pt (P i)) (pt (P j)) (pt (P k)) < 0); [|lra]. apply E3. apply others_in; auto.
    - exists []. cbn [flat_map segs map]. rewrite !app_nil_r. split; [easy|]. split; [cbn; lia|].
      intros a b. split; [easy|]. apply others_in in Hp; auto. apply others_in in Hq; auto. destruct Hp as (P1 & P2 & P3), Hq as (Q1 & Q2 & Q3).
      intros [(_ & _ & _ & H) [[-> ->]|[-> ->]]]; exfalso.
      + specialize (H p P1 P2 P3). lra.
      + specialize (H q Q1 Q3 Q2). rewrite FL in H. lra.
  Qed.
  Lemma direct_pairs_in i j : In (i, j) (direct_pairs n) <-> (i < j)%nat /\ (j < n)%nat.
  Proof.
    unfold direct_pairs. rewrite in_flat_map. split.
    - intros (x & Hx & H). apply in_map_iff in H. destruct H as (y & [= <- <-] & Hy). apply in_seq in Hx, Hy. lia.
    - intros [A B]. exists i. split; [apply in_seq; lia|]. apply in_map_iff. exists j. split; [easy|]. apply in_seq; lia.
  Qed.
  Lemma direct_fold L : (forall i j, In (i, j) L -> (i < j)%nat /\ (j < n)%nat) -> NoDup L -> forall vs es, exists E VS,
    fold_left (direct_step pts) L (Ok (vs, es)) = Ok (vs ++ VS, es ++ segs E) /\ NoDup E /\
    (forall a b, In (a, b) E <-> right_edge pts a b /\ exists i j, In (i, j) L /\ ((a = P i /\ b = P j) \/ (a = P j /\ b = P i))) /\
    (forall v, In v VS <-> exists w, In (v, w) E \/ In (w, v) E).
  Proof.
    induction L as [|[i j] L IH]; intros HL ND vs es.
    - exists [], []. cbn. rewrite !app_nil_r. split; [easy|]. split; [constructor|]. split; [|intros v; split; [easy|intros (w & [[]|[]])]]. intros a b. split; [easy|]. intros (_ & i & j & [] & _).
    - cbn [fold_left]. destruct (HL i j) as [H1 H2]; [cbn; auto|]. destruct (pair_step i j vs es H1 H2) as (o & EO & LO & HO). rewrite EO. inversion ND as [|x y N1 N2]; subst x y.
      destruct (IH (fun i j H => HL i j (or_intror H)) N2 (vs ++ flat_map (fun _ => [P i; P j]) o) (es ++ segs o)) as (E & VS & E1 & E2 & E3 & E4).
      rewrite E1. exists (o ++ E), (flat_map (fun _ => [P i; P j]) o ++ VS). unfold segs. rewrite map_app, !app_assoc. split; [easy|]. split; [|split].
      + assert (NO : NoDup o). { destruct o as [|x [|y o]]; [constructor|repeat constructor; easy|cbn in LO; lia]. }
        clear - NO E2 HO E3 N1 HL GP H1 H2. assert (DJ : forall e, In e o -> ~ In e E).
        { intros [a b] He Hb. apply HO in He. apply E3 in Hb. destruct He as [_ He], Hb as [_ (i' & j' & Hij & Hb)]. destruct (HL i' j') as [Q1 Q2]; [cbn; auto|].
          assert (INJ : forall x y, (x < n)%nat -> (y < n)%nat -> P x = P y -> x = y) by (intros x y Hx Hy K; apply P_inj; auto; now rewrite K).
          assert ((i = i' /\ j = j') \/ (i = j' /\ j = i')) as K.
          { destruct He as [[-> ->]|[-> ->]], Hb as [[K1 K2]|[K1 K2]]; apply INJ in K1; try lia; apply INJ in K2; lia. }
          destruct K as [[-> ->]|K]; [easy|lia]. }
        revert NO DJ. generalize o. induction o0 as [|e o0 IH]; intros NO DJ; [easy|]. cbn. inversion NO; subst. constructor.
        * rewrite in_app_iff. intros [K|K]; [easy|]. now apply (DJ e); cbn; auto.
        * apply IH; [easy|]. intros x Hx. apply DJ. cbn; auto.
      + intros a b. rewrite in_app_iff, HO, E3. split.
        * intros [[A B]|[A (i' & j' & Hij & B)]]; (split; [easy|]); [exists i, j|exists i', j']; cbn; auto.
        * intros (A & i' & j' & [[= <- <-]|Hij] & B); [left; auto|right; split; [easy|]; now exists i', j'].
      + intros v. rewrite in_app_iff, E4, in_flat_map. split.
        * intros [([a b] & Hab & Hv)|(w & [H|H])].
          -- pose proof (proj1 (HO a b) Hab) as [_ K]. cbn in Hv. destruct Hv as [<-|[<-|[]]]; [exists (P j)|exists (P i)]; rewrite !in_app_iff; destruct K as [[-> ->]|[-> ->]]; auto.
          -- exists w. rewrite !in_app_iff. auto.
          -- exists w. rewrite !in_app_iff. auto.
        * intros (w & H). rewrite !in_app_iff in H. destruct H as [[H|H]|[H|H]].
          -- left. exists (v, w). split; [easy|]. apply HO in H. destruct H as [_ [[-> ->]|[-> ->]]]; cbn; auto.
          -- right. exists w. auto.
          -- left. exists (w, v). split; [easy|]. apply HO in H. destruct H as [_ [[-> ->]|[-> ->]]]; cbn; auto.
          -- right. exists w. auto.
  Qed.
End Direct.
Lemma direct_pairs_nodup n : NoDup (direct_pairs n).
Proof.
  unfold direct_pairs. assert (G : forall l, NoDup l -> NoDup (flat_map (fun i => map (fun j => (i, j)) (seq (S i) (n - S i))) l)).
  { induction l as [|i l IH]; intros ND; cbn [flat_map]; [constructor|]. inversion ND; subst.
    assert (NM : NoDup (map (fun j => (i, j)) (seq (S i) (n - S i)))). { apply FinFun.Injective_map_NoDup; [intros x y; congruence|apply seq_NoDup]. }
    revert NM. generalize (seq (S i) (n - S i)). induction l0 as [|j l0 IH0]; intros NM; cbn; [now apply IH|]. inversion NM; subst. constructor; [|now apply IH0].
    rewrite in_app_iff. intros [K|K]; [easy|]. apply in_flat_map in K. destruct K as (x & Hx & K). apply in_map_iff in K. destruct K as (y & [= -> _] & _). easy. }
  apply G, seq_NoDup.
Qed.

(** A point strictly inside a convex polygon has corners of the polygon on
    both sides of any line through it. *)
Lemma no_support_inside sg (l : list point) (a b : point) : sg * sg = 1 -> l <> [] -> strictly_inside l a ->
  (forall v, In v l -> v <> b -> sg * side a b v < 0) -> a <> b -> False.
Proof.
  intros SG Hne SI SD Nab. pose (D := psub b a). pose (f v := cross D (psub v a)). pose (g v := dot D (psub v a)).
  assert (FN : forall u, In u l -> sg * f u < 0).
  { intros u Hu. destruct (classic (u = b)) as [->|N]; [|now apply SD]. exfalso.
    destruct (closed_succ l b Hu) as (w & Hw). destruct (closed_pred l b Hu) as (x & Hx). pose proof (SI b w Hw) as I1. pose proof (SI x b Hx) as I2.
    destruct (in_closed _ _ Hw) as [_ W]. destruct (in_closed _ _ Hx) as [X _]. cbn [fst snd] in W, X.
    destruct (classic (w = b)) as [->|Nw]; [rewrite side_level in I1; lra|]. destruct (classic (x = b)) as [->|Nx]; [rewrite side_level in I2; lra|].
    pose proof (SD w W Nw). pose proof (SD x X Nx).
    assert (side b w a = side a b w) by (rewrite !side_level; ring). assert (side x b a = - side a b x) by (rewrite !side_level; ring). nra. }
  apply (cyc_decr (fun v => g v / f v) l Hne). intros u w Huw. specialize (SI u w Huw). destruct (in_closed _ _ Huw) as [Hu Hw]. cbn [fst snd] in *.
  pose proof (FN u Hu). pose proof (FN w Hw).
  assert (ND : 0 < norm2 D). { destruct (norm2_nonneg D) as [K|K]; [easy|]. exfalso. apply Nab. symmetry. now apply psub_zero. }
  assert (ID : norm2 D * side u w a = g u * f w - f u * g w) by (unfold f, g, norm2, side, cross, dot, psub, px, py; cbn [fst snd]; ring).
  assert (0 < g u * f w - f u * g w) by (rewrite <- ID; apply Rmult_lt_0_compat; lra).
  assert (PP : 0 < f u * f w) by (replace (f u * f w) with ((sg * sg) * (f u * f w)) by (rewrite SG; ring); nra).
  assert (f u <> 0) by (intros K; rewrite K in PP; lra). assert (f w <> 0) by (intros K; rewrite K in PP; lra).
  apply Rlt_gt, Rmult_lt_reg_r with (f u * f w); [easy|]. field_simplify; lra.
Qed.

Theorem C102_direct_R : forall (pts : list (vec R)) sorter, (3 <= List.length pts)%nat -> general_position (map pt pts) ->
  (forall l, exists l', sorter l = Ok l' /\ Permutation l l') ->
  exists vs E, ConvexHull_compute sorter DIRECT_METHOD (ConvexHull_init pts) = Ok (mkHull pts vs (segs E) false) /\
    NoDup (map pt vs) /\ NoDup E /\
    (* the edges are exactly the sides of the hull, directed clockwise *)
    (forall a b, In (a, b) E <-> right_edge pts a b) /\
    (* the vertices are exactly those the wrapping method finds *)
    (forall s' ws es, ConvexHull_compute s' WRAPPING_METHOD (ConvexHull_init pts) = Ok (mkHull pts ws es false) -> forall v, In v vs <-> In v ws).
Proof.
  intros pts sorter Hn GP SO. set (d := mkVec 0 0 true).
  destruct (direct_fold pts d Hn GP (direct_pairs (List.length pts)) (fun i j H => proj1 (direct_pairs_in pts Hn i j) H) (direct_pairs_nodup _) [] []) as (E & VS & E1 & E2 & E3 & E4).
  cbn [app] in E1. destruct (SO VS) as (VS' & S1 & S2).
  assert (EE : forall a b, In (a, b) E <-> right_edge pts a b).
  { intros a b. rewrite E3. split; [tauto|]. intros H. split; [easy|]. destruct H as (Ha & Hb & N & _).
    destruct (P_ex pts d a Ha) as (i & Hi & <-), (P_ex pts d b Hb) as (j & Hj & <-).
    assert (i <> j) by (intros ->; easy). destruct (Nat.lt_ge_cases i j).
    - exists i, j. split; [now apply direct_pairs_in|auto].
    - exists j, i. split; [apply direct_pairs_in; lia|auto]. }
  destruct (C75_convex_hull_R pts sorter Hn GP) as (ws & es & W1 & W2 & W3 & W4 & W5 & _).
  assert (PI : forall a b, In a pts -> In b pts -> pt a = pt b -> a = b) by (intros a b; apply (pt_inj pts d GP)).
  assert (VW : forall v, In v VS <-> In v ws).
  { intros v. rewrite E4. split.
    - assert (K : forall w, right_edge pts v w \/ right_edge pts w v -> In v ws).
      { intros w H. assert (Hv : In v pts) by (destruct H as [H|H]; apply H). assert (Hw : In w pts) by (destruct H as [H|H]; apply H). assert (N : v <> w) by (destruct H as [(_ & _ & N & _)|(_ & _ & N & _)]; congruence).
        destruct (W5 v Hv) as [I|I]; [easy|]. exfalso.
        assert (NE : map pt ws <> []) by (destruct ws; [cbn in W2; lia|easy]).
        assert (NV : forall c, In c ws -> c <> v). { intros c Hc ->. destruct (closed_succ _ _ (in_map pt _ _ Hc)) as (x & Hx). specialize (I _ _ Hx). rewrite side_level in I. lra. }
        assert (Npt : pt v <> pt w) by (intros K; apply PI in K; auto).
        assert (FL : forall c, side (pt v) (pt w) c = - side (pt w) (pt v) c) by (intros; rewrite !side_level; ring).
        destruct H as [H|H]; [apply (no_support_inside 1 (map pt ws) (pt v) (pt w)); auto; try lra|apply (no_support_inside (-1) (map pt ws) (pt v) (pt w)); auto; try lra];
          intros c Hc Nc; apply in_map_iff in Hc; destruct Hc as (c' & <- & Hc); assert (c' <> w) by (intros ->; easy); destruct H as (_ & _ & _ & H).
        - specialize (H c' (W3 _ Hc) (NV _ Hc) H0). lra.
        - specialize (H c' (W3 _ Hc) H0 (NV _ Hc)). rewrite FL. lra. }
      intros (w & [H|H]); apply EE in H; apply (K w); auto.
    - intros Hv. destruct (closed_succ _ _ Hv) as (w & Hw). exists w. right. apply EE. destruct (in_closed _ _ Hw) as [_ Iw]. cbn [snd] in Iw.
      assert (Hp : In (pt v, pt w) (closed_edges (map pt ws))) by (rewrite closed_edges_map; now apply (in_map (fun e => (pt (fst e), pt (snd e))) _ (v, w))).
      assert (LT : forall c, In c pts -> c <> w -> c <> v -> side (pt v) (pt w) (pt c) > 0).
      { intros c Hc A B. destruct (W5 c Hc) as [I|I]; [|now apply I]. apply (proj2 W4); auto using in_map; intros K; apply PI in K; auto. }
      assert (FL : forall c, side (pt w) (pt v) c = - side (pt v) (pt w) c) by (intros; rewrite !side_level; ring).
      split; [auto|]. split; [auto|]. split.
      + intros ->. (* an edge from v to v: every other vertex would be at side 0 > 0 *)
        assert (exists c, In c pts /\ c <> v) as (c & Hc & Nc).
        { destruct pts as [|p [|q l]]; [cbn in Hn; lia|cbn in Hn; lia|]. destruct (classic (p = v)) as [->|]; [exists q|exists p]; cbn; split; auto.
          intros ->. destruct GP as [ND _]. cbn in ND. inversion ND; subst. cbn in *. tauto. }
        specialize (LT c Hc Nc Nc). rewrite side_level in LT. lra.
      + intros c Hc A B. rewrite FL. specialize (LT c Hc A B). lra. }
  assert (NEV : VS <> []). { intros K. destruct ws as [|v ws]; [cbn in W2; lia|]. assert (In v VS) by (apply VW; cbn; auto). now rewrite K in H. }
  exists (list2set VS'), E. destruct (C78_list2set_R VS') as (L1 & L2 & L3 & _).
  split; [|split; [easy|split; [easy|split; [easy|]]]].
  - cbn [ConvexHull_compute]. unfold compute_direct_method. change (h_input (clear_results (ConvexHull_init pts))) with pts.
    replace (Nat.ltb (List.length pts) 3) with false by (symmetry; apply Nat.ltb_ge; lia). rewrite E1. cbn [bind]. destruct VS as [|v VS]; [easy|]. now rewrite S1.
  - intros s' ws' es' EW v. change (ConvexHull_compute s' WRAPPING_METHOD (ConvexHull_init pts)) with (ConvexHull_compute sorter WRAPPING_METHOD (ConvexHull_init pts)) in EW. rewrite W1 in EW. injection EW as <- <-.
    rewrite <- VW. assert (IV : forall x, In x VS' <-> In x VS) by (intros x; split; apply Permutation_in; [now symmetry|easy]). rewrite <- IV.
    split; [apply L2|]. intros Hv. assert (Hp : In (pt v) (map pt (list2set VS'))) by (apply L3; now apply in_map).
    apply in_map_iff in Hp. destruct Hp as (u & Eu & Hu). replace v with u; [easy|]. apply PI; [| |easy]; apply W3, VW, IV; auto.
Qed.
(** CPython's sort always succeeds with this comparison. *)
Lemma angle_lt_ok (u v : vec R) : exists b, angle_lt u v = Ok b.
Proof. unfold angle_lt, angle_sort_predicate. rewrite !dist2_R. cbn [bind]. repeat match goal with |- context [if ?c then _ else _] => destruct c end; cbn [bind]; eauto. Qed.
Lemma bin_insert_ok l x f : forall lo hi, (hi <= List.length l)%nat -> exists k, bin_insert_pos angle_lt f l (x : vec R) lo hi = Ok k.
Proof.
  induction f as [|f IH]; intros lo hi Hh; cbn [bin_insert_pos]; [eauto|]. destruct (Nat.ltb_spec lo hi); [|eauto].
  assert (HM : (Nat.div (lo + hi) 2 < hi)%nat) by (apply Nat.div_lt_upper_bound; lia).
  destruct (nth_error l (Nat.div (lo + hi) 2)) as [y|] eqn:E; [|apply nth_error_None in E; lia].
  destruct (angle_lt_ok x y) as [b Eb]. rewrite Eb. cbn [bind]. destruct b; apply IH; lia.
Qed.
Lemma bin_sort_ok rest : forall sorted, exists l', bin_sort angle_lt sorted (rest : list (vec R)) = Ok l'.
Proof. induction rest as [|x rest IH]; intros sorted; cbn [bin_sort]; [eauto|]. destruct (bin_insert_ok sorted x (S (List.length sorted)) 0 (List.length sorted) ltac:(lia)) as [k E]. rewrite E. cbn [bind]. apply IH. Qed.
Lemma run_from_ok b l : forall prev, exists r, run_from angle_lt b prev (l : list (vec R)) = Ok r.
Proof.
  induction l as [|x l IH]; intros prev; cbn [run_from]; [eauto|]. destruct (angle_lt_ok x prev) as [c E]. rewrite E. cbn [bind].
  destruct (Bool.eqb c b); [|eauto]. destruct (IH x) as [[r1 r2] E2]. rewrite E2. cbn. eauto.
Qed.
Lemma py_sort_total (l : list (vec R)) : exists l', py_sort_small angle_lt l = Ok l' /\ Permutation l l'.
Proof.
  assert (exists l', py_sort_small angle_lt l = Ok l') as [l' E].
  { destruct l as [|x [|y l]]; cbn [py_sort_small]; [eauto|eauto|]. destruct (angle_lt_ok y x) as [b E]. rewrite E. cbn [bind].
    destruct (run_from_ok b l y) as [[r1 r2] E2]. rewrite E2. cbn [bind]. apply bin_sort_ok. }
  exists l'. split; [easy|]. now apply (py_sort_small_perm angle_lt).
Qed.
Example C102_nonvacuous : let pts := [mkVec 0 0 true; mkVec 4 0 true; mkVec 1 1 true; mkVec 0 4 true] in
  (3 <= List.length pts)%nat /\ general_position (map pt pts) /\ (forall l, exists l', py_sort_small angle_lt l = Ok l' /\ @Permutation (vec R) l l').
Proof. cbv zeta. split; [apply C75_nonvacuous|]. split; [apply C75_nonvacuous|apply py_sort_total]. Qed.

(** ** C99: edges() after wrapping has one side fewer than the hull: the one
    from the first vertex to the second. *)
Theorem C99_wrapping_edges_R : forall (pts : list (vec R)) sorter h, (3 <= List.length pts)%nat -> general_position (map pt pts) ->
  ConvexHull_compute sorter WRAPPING_METHOD (ConvexHull_init pts) = Ok h ->
  exists v0 v1 vs, hull_vertices h = v0 :: v1 :: vs /\ S (List.length (h_edges h)) = List.length (hull_vertices h) /\
    ~ In (Segment2D_of_points v0 v1) (h_edges h) /\
    forall a b, In (a, b) (closed_edges (hull_vertices h)) -> (a, b) <> (v0, v1) -> In (Segment2D_of_points a b) (h_edges h).
Proof.
  intros pts sorter h Hn GP E. destruct (C75_convex_hull_R pts sorter Hn GP) as (vs & es & W1 & W2 & W3 & W4 & _ & _ & W5). rewrite W1 in E. injection E as <-.
  unfold hull_vertices. cbn [h_alias h_vertices h_edges]. destruct vs as [|v0 [|v1 vs]]; [cbn in W2; lia|cbn in W2; lia|]. exists v0, v1, vs. split; [easy|]. rewrite W5.
  change (tl (closed_edges (v0 :: v1 :: vs))) with (combine (v1 :: vs) (vs ++ [v0])). split; [|split].
  - rewrite map_length, combine_length. rewrite app_length. cbn [List.length]. rewrite Nat.add_1_r, Nat.min_id. reflexivity.
  - intros K. apply in_map_iff in K. destruct K as ([a b] & EQ & K). cbn [fst snd] in EQ. apply (f_equal (fun s => pt (s_origin s))) in EQ. change (pt a = pt v0) in EQ.
    apply in_combine_l in K. destruct W4 as [ND _]. cbn [map] in ND. inversion ND as [|x y N1 N2]; subst. apply N1. change (pt v1 :: map pt vs) with (map pt (v1 :: vs)). rewrite <- EQ. now apply in_map.
  - change (closed_edges (v0 :: v1 :: vs)) with ((v0, v1) :: combine (v1 :: vs) (vs ++ [v0])). intros a b [[= <- <-]|K] N; [now destruct N|]. now apply (in_map (fun e => Segment2D_of_points (fst e) (snd e)) _ (a, b)).
Qed.
Example C99_nonvacuous : let pts := [mkVec 0 0 true; mkVec 4 0 true; mkVec 1 1 true; mkVec 0 4 true] in
  exists h : hull R, ConvexHull_compute (py_sort_small angle_lt) WRAPPING_METHOD (ConvexHull_init pts) = Ok h.
Proof. cbv zeta. destruct (C75_convex_hull_R _ (py_sort_small angle_lt) (proj1 C75_nonvacuous) (proj2 C75_nonvacuous)) as (vs & es & E & _). eexists. exact E. Qed.
