(** * P_Polygon3: property C71, point in convex polygon *)
From Coq Require Import ZArith List Bool String Reals Lra Lia Psatz Permutation Classical.
From Flocq Require Import Core.
From Verif Require Import Base Types NumR R_Tac Spec Spec2 Abs M_Vector M_Segment M_Polygon
  L_Seg P_Segment P_Polygon P_Polygon2.
Import ListNotations.
Local Open Scope R_scope.

Lemma side_lerp a b c d t : side a b (lerp c d t) = (1 - t) * side a b c + t * side a b d.
Proof. unfold side, cross, psub, lerp; cbn [px py fst snd]. unfold px, py. ring. Qed.
Lemma side_p a b p : side a b p = (px a - px p) * (py b - py p) - (py a - py p) * (px b - px p).
Proof. rewrite side_level. ring. Qed.
Lemma snd_closed {A} (l : list A) : Permutation (map snd (closed_edges l)) l.
Proof.
  destruct l as [|a l]; [constructor|]. cbn [closed_edges]. rewrite <- path_pairs_combine.
  assert (G : forall b z, map snd (path_pairs b l z) = l ++ [z]).
  { induction l as [|c l IH]; intros b z; cbn; [easy|]. now rewrite IH. }
  rewrite G. apply Permutation_sym, Permutation_cons_append.
Qed.
Lemma closed_succ {A} (l : list A) v : In v l -> exists b, In (v, b) (closed_edges l).
Proof. rewrite <- (map_fst_closed l) at 1. rewrite in_map_iff. intros ([x b] & <- & H). now exists b. Qed.
Lemma closed_pred {A} (l : list A) v : In v l -> exists b, In (b, v) (closed_edges l).
Proof. intros H. apply (Permutation_in _ (Permutation_sym (snd_closed l))) in H. apply in_map_iff in H. destruct H as ([b x] & <- & H). now exists b. Qed.
Lemma NoDup_fst {A B} (L : list (A * B)) a b b' : NoDup (map fst L) -> In (a, b) L -> In (a, b') L -> b = b'.
Proof.
  induction L as [|[x y] L IH]; cbn; [easy|]. intros ND H H'. inversion ND as [|u v NI ND']; subst.
  destruct H as [[= -> ->]|H], H' as [E|H']; try (injection E as E); subst; try easy; auto; exfalso; apply NI.
  - change a with (fst (a, b')). now apply in_map. - change a with (fst (a, b)). now apply in_map.
Qed.
Lemma NoDup_snd {A B} (L : list (A * B)) a a' b : NoDup (map snd L) -> In (a, b) L -> In (a', b) L -> a = a'.
Proof.
  induction L as [|[x y] L IH]; cbn; [easy|]. intros ND H H'. inversion ND as [|u v NI ND']; subst.
  destruct H as [[= -> ->]|H], H' as [E|H']; try (injection E as E); subst; try easy; auto; exfalso; apply NI.
  - change b with (snd (a', b)). now apply in_map. - change b with (snd (a, b)). now apply in_map.
Qed.

(** going round with a strictly decreasing quantity *)
Lemma cyc_decr {A} (f : A -> R) l : l <> [] -> (forall a b, In (a, b) (closed_edges l) -> f a > f b) -> False.
Proof.
  destruct l as [|a l]; [easy|]. intros _. rewrite <- cyc_pairs_closed. cbn [cyc_pairs]. intros H.
  assert (G : forall b z, (forall x y, In (x, y) (path_pairs b l z) -> f x > f y) -> f b > f z).
  { clear. induction l as [|c l IH]; intros b z H; [apply H; cbn; auto|]. cbn [path_pairs] in H.
    assert (f b > f c) by (apply H; cbn; auto). assert (f c > f z) by (apply IH; intros; apply H; cbn; auto). lra. }
  specialize (G a a H). lra.
Qed.
Lemma path_same {A} (f : A -> bool) (b : A) l z : (forall x y, In (x, y) (path_pairs b l z) -> f x = f y) -> forall v, In v l -> f v = f b.
Proof.
  revert b. induction l as [|c l IH]; intros b H v Hv; [easy|]. cbn [path_pairs] in H.
  assert (E : f b = f c) by (apply H; cbn; auto). destruct Hv as [<-|Hv]; [easy|]. rewrite E. apply IH; [|easy]. intros; apply H; cbn; auto.
Qed.
Lemma inside_straddles l p : l <> [] -> strictly_inside l p ->
  (forall e, In e (closed_edges l) -> upb p e = false) -> (forall e, In e (closed_edges l) -> downb p e = false) -> False.
Proof.
  intros Hne SI NU ND.
  assert (SAME : exists b, forall v, In v l -> Rlt_bool (py p) (py v) = b).
  { destruct l as [|a l]; [easy|]. exists (Rlt_bool (py p) (py a)). intros v [<-|Hv]; [easy|].
    apply (path_same (fun v => Rlt_bool (py p) (py v)) a l a); [|easy]. intros x y Hxy.
    change (path_pairs a l a) with (cyc_pairs (a :: l)) in Hxy. rewrite cyc_pairs_closed in Hxy.
    pose proof (straddle_xor p (x, y)) as E. rewrite (NU _ Hxy), (ND _ Hxy) in E. cbn in E. symmetry in E. now apply xorb_eq in E. }
  destruct SAME as [b SAME].
  assert (NZ : forall v, In v l -> 0 < (py v - py p) * (if b then 1 else -1)).
  { destruct b.
    - intros v Hv. specialize (SAME v Hv). apply Rlt_bool_iff in SAME. lra.
    - intros v Hv. pose proof (SAME v Hv) as K. apply not_true_iff_false in K. rewrite Rlt_bool_iff in K.
      destruct (closed_succ l v Hv) as [w Hw]. destruct (closed_pred l v Hv) as [u Hu].
      pose proof (SI _ _ Hw) as S1. pose proof (SI _ _ Hu) as S2. rewrite side_p in S1, S2.
      pose proof (SAME w (proj2 (in_closed _ _ Hw))) as Kw. apply not_true_iff_false in Kw. rewrite Rlt_bool_iff in Kw.
      pose proof (SAME u (proj1 (in_closed _ _ Hu))) as Ku. apply not_true_iff_false in Ku. rewrite Rlt_bool_iff in Ku.
      destruct (Req_dec (py v) (py p)) as [E|E]; [|lra]. exfalso. rewrite E in S1, S2.
      replace (py p - py p) with 0 in S1, S2 by ring.
      assert (px v - px p < 0). { destruct (Rlt_dec (px v - px p) 0); [easy|]. exfalso. assert (0 <= (px v - px p) * (py p - py w)) by (apply Rmult_le_pos; lra). lra. }
      assert (0 <= (py p - py u) * (px p - px v)) by (apply Rmult_le_pos; lra). lra. }
  apply (cyc_decr (fun v => (px v - px p) / (py v - py p)) l Hne).
  intros x y Hxy. pose proof (SI _ _ Hxy) as S1. rewrite side_p in S1.
  pose proof (NZ x (proj1 (in_closed _ _ Hxy))) as Zx. pose proof (NZ y (proj2 (in_closed _ _ Hxy))) as Zy.
  assert (PP : 0 < (py x - py p) * (py y - py p)).
  { assert (0 < ((py x - py p) * (if b then 1 else -1)) * ((py y - py p) * (if b then 1 else -1))) by (apply Rmult_lt_0_compat; lra). destruct b; lra. }
  assert (N1 : py x - py p <> 0) by (intros E; rewrite E in PP; lra). assert (N2 : py y - py p <> 0) by (intros E; rewrite E in PP; lra).
  apply Rlt_gt. apply Rmult_lt_reg_r with ((py x - py p) * (py y - py p)); [easy|]. field_simplify; [|easy|easy]. lra.
Qed.

Section Convex.
  Variables (l : list point) (p : point).
  Hypothesis SC : strictly_convex l.
  Let L := closed_edges l.
  Lemma cvx_side a b v : In (a, b) L -> In v l -> side a b v >= 0.
  Proof.
    intros He Hv. destruct (classic (v = a)) as [->|Na]; [rewrite side_level; lra|]. destruct (classic (v = b)) as [->|Nb]; [rewrite side_level; lra|].
    pose proof (proj2 SC) as H. specialize (H a b v He Hv Na Nb). lra.
  Qed.
  Lemma cvx_zero a b v : In (a, b) L -> In v l -> side a b v = 0 -> v = a \/ v = b.
  Proof.
    intros He Hv Z. destruct (classic (v = a)) as [->|Na]; [now left|]. destruct (classic (v = b)) as [->|Nb]; [now right|].
    pose proof (proj2 SC) as H. specialize (H a b v He Hv Na Nb). lra.
  Qed.
  Lemma cvx_NoDup : NoDup L.
  Proof. apply (NoDup_map_inv fst). unfold L. rewrite map_fst_closed. apply SC. Qed.
  (** where an edge meets the level of [p] *)
  Definition xat (e : point * point) : R := px (fst e) + (py p - py (fst e)) / (py (snd e) - py (fst e)) * (px (snd e) - px (fst e)).
  Lemma side_up a b x : py a < py b -> side a b (x, py p) = (py b - py a) * (xat (a, b) - x).
  Proof. intros H. unfold xat. rewrite side_level. cbn [fst snd]. unfold px, py in *; cbn [fst snd]. field. lra. Qed.
  Lemma side_down a b x : py b < py a -> side a b (x, py p) = (py a - py b) * (x - xat (a, b)).
  Proof. intros H. unfold xat. rewrite side_level. cbn [fst snd]. unfold px, py in *; cbn [fst snd]. field. lra. Qed.
  Lemma xat_on c d : py c <> py d -> (py c <= py p <= py d \/ py d <= py p <= py c) -> exists t, 0 <= t <= 1 /\ (xat (c, d), py p) = lerp c d t.
  Proof. intros N H. exact (on_seg_level c d (py p) N H). Qed.
  Lemma lerp_level c d t x : (x, py p) = lerp c d t -> py p - py c = t * (py d - py c).
  Proof. intros E. unfold lerp in E. injection E as _ E. rewrite E. ring. Qed.
  Lemma cvx_on a b c d : In (a, b) L -> In (c, d) L -> py c <> py d -> (py c <= py p <= py d \/ py d <= py p <= py c) -> side a b (xat (c, d), py p) >= 0.
  Proof.
    intros H H' N HY. destruct (xat_on c d N HY) as (t & Ht & ->). rewrite side_lerp.
    destruct (in_closed _ _ H') as [I1 I2]. cbn in I1, I2. pose proof (cvx_side a b c H I1). pose proof (cvx_side a b d H I2).
    assert (0 <= (1 - t) * side a b c) by (apply Rmult_le_pos; lra). assert (0 <= t * side a b d) by (apply Rmult_le_pos; lra). lra.
  Qed.
  (** the level point of an edge is on the line of [a b] *)
  Lemma cvx_touch a b c d : In (a, b) L -> In (c, d) L -> py c <> py d -> (py c <= py p <= py d \/ py d <= py p <= py c) ->
    side a b (xat (c, d), py p) = 0 -> (py p <> py d -> c = a \/ c = b) /\ (py p <> py c -> d = a \/ d = b).
  Proof.
    intros H H' N HY Z. destruct (xat_on c d N HY) as (t & Ht & E). pose proof (lerp_level _ _ _ _ E) as EL. rewrite E, side_lerp in Z.
    destruct (in_closed _ _ H') as [I1 I2]. cbn in I1, I2. pose proof (cvx_side a b c H I1). pose proof (cvx_side a b d H I2).
    assert (0 <= (1 - t) * side a b c) by (apply Rmult_le_pos; lra). assert (0 <= t * side a b d) by (apply Rmult_le_pos; lra).
    split; intros K.
    - apply cvx_zero; [easy|easy|]. assert (M : (1 - t) * side a b c = 0) by lra. apply Rmult_integral in M. destruct M as [M|M]; [|easy].
      exfalso. apply K. replace t with 1 in EL by lra. lra.
    - apply cvx_zero; [easy|easy|]. assert (M : t * side a b d = 0) by lra. apply Rmult_integral in M. destruct M as [M|M]; [|easy].
      exfalso. apply K. rewrite M in EL. lra.
  Qed.
  Lemma up_unique e e' : In e L -> In e' L -> upb p e = true -> upb p e' = true -> e' = e.
  Proof.
    destruct e as [a b], e' as [c d]. rewrite !upb_iff. cbn [fst snd]. intros H H' U U'.
    pose proof (cvx_on a b c d H H' ltac:(lra) ltac:(lra)) as S1. pose proof (cvx_on c d a b H' H ltac:(lra) ltac:(lra)) as S2.
    rewrite side_up in S1, S2 by lra.
    assert (xat (c, d) <= xat (a, b)) by (apply Rmult_le_reg_l with (py b - py a); lra).
    assert (xat (a, b) <= xat (c, d)) by (apply Rmult_le_reg_l with (py d - py c); lra).
    assert (Z : side a b (xat (c, d), py p) = 0) by (rewrite side_up by lra; replace (xat (c, d)) with (xat (a, b)) by lra; ring).
    destruct (cvx_touch a b c d H H' ltac:(lra) ltac:(lra) Z) as [T _]. destruct (T ltac:(lra)) as [-> | ->]; [|lra].
    f_equal. apply (NoDup_fst L a d b); try easy. unfold L. rewrite map_fst_closed. apply SC.
  Qed.
  Lemma down_unique e e' : In e L -> In e' L -> downb p e = true -> downb p e' = true -> e' = e.
  Proof.
    destruct e as [a b], e' as [c d]. rewrite !downb_iff. cbn [fst snd]. intros H H' U U'.
    pose proof (cvx_on a b c d H H' ltac:(lra) ltac:(lra)) as S1. pose proof (cvx_on c d a b H' H ltac:(lra) ltac:(lra)) as S2.
    rewrite side_down in S1, S2 by lra.
    assert (xat (a, b) <= xat (c, d)) by (apply Rmult_le_reg_l with (py a - py b); lra).
    assert (xat (c, d) <= xat (a, b)) by (apply Rmult_le_reg_l with (py c - py d); lra).
    assert (Z : side a b (xat (c, d), py p) = 0) by (rewrite side_down by lra; replace (xat (c, d)) with (xat (a, b)) by lra; ring).
    destruct (cvx_touch a b c d H H' ltac:(lra) ltac:(lra) Z) as [_ T]. destruct (T ltac:(lra)) as [-> | ->]; [lra|].
    f_equal. apply (NoDup_snd L c a b); try easy. apply (Permutation_NoDup (Permutation_sym (snd_closed l))). exact (proj1 SC).
  Qed.
  Lemma par_true_ex {A} (f : A -> bool) M : par f M = true -> exists e, In e M /\ f e = true.
  Proof. intros H. apply NNPP. intros K. rewrite par_false in H; [discriminate|]. intros e He. destruct (f e) eqn:E; [|easy]. exfalso. apply K. now exists e. Qed.
  Lemma convex_parity : l <> [] -> ~ on_outline l p -> (par (crossb p) L = true <-> strictly_inside l p).
  Proof.
    intros Hne NO.
    assert (EX : par (crossb p) L = xorb (par (fun e => upb p e && Rlt_bool 0 (side (fst e) (snd e) p)) L) (par (fun e => downb p e && Rlt_bool (side (fst e) (snd e) p) 0) L)).
    { rewrite <- par_xor. apply par_ext. intros; apply crossb_xor. }
    pose proof (par_straddle p l) as PS. fold L in PS.
    destruct (par (upb p) L) eqn:EU.
    - apply par_true_ex in EU. destruct EU as ([c d] & H1 & U). symmetry in PS. apply par_true_ex in PS. destruct PS as ([c' d'] & H2 & D).
      rewrite (par_unique (fun e => upb p e && Rlt_bool 0 (side (fst e) (snd e) p)) L (c, d)) in EX; [|apply cvx_NoDup|easy|intros e He K; apply andb_true_iff in K; now apply (up_unique (c, d))].
      rewrite (par_unique (fun e => downb p e && Rlt_bool (side (fst e) (snd e) p) 0) L (c', d')) in EX; [|apply cvx_NoDup|easy|intros e He K; apply andb_true_iff in K; now apply (down_unique (c', d'))].
      rewrite U, D in EX. cbn [andb fst snd] in EX. rewrite EX. clear EX.
      apply upb_iff in U. apply downb_iff in D. cbn [fst snd] in U, D.
      split.
      + intros X.
        assert (Hp : p = (px p, py p)) by now destruct p.
        assert (SU : side c d p = (py d - py c) * (xat (c, d) - px p)) by (rewrite Hp at 1; apply side_up; lra).
        assert (SD : side c' d' p = (py c' - py d') * (px p - xat (c', d'))) by (rewrite Hp at 1; apply side_down; lra).
        rewrite SU, SD in X.
        set (x1 := xat (c, d)) in *. set (x2 := xat (c', d')) in *.
        assert (X21 : x2 <= x1).
        { pose proof (cvx_on c d c' d' H1 H2 ltac:(lra) ltac:(lra)) as S1. rewrite side_up in S1 by lra. fold x1 x2 in S1. apply Rmult_le_reg_l with (py d - py c); lra. }
        assert (XX : x2 <= px p < x1).
        { destruct (Rlt_bool_spec 0 ((py d - py c) * (x1 - px p))) as [K1|K1], (Rlt_bool_spec ((py c' - py d') * (px p - x2)) 0) as [K2|K2]; cbn in X; try discriminate.
          - split; [apply Rmult_le_reg_l with (py c' - py d'); lra|apply Rmult_lt_reg_l with (py d - py c); lra].
          - exfalso. assert (x1 <= px p) by (apply Rmult_le_reg_l with (py d - py c); lra). assert (px p < x2) by (apply Rmult_lt_reg_l with (py c' - py d'); lra). lra. }
        assert (X2 : x2 <> px p).
        { intros E. apply NO. exists (c', d'). split; [exact H2|]. cbn [fst snd]. assert (Q : on_seg c' d' (x2, py p)) by (unfold x2, xat; apply on_seg_level; cbn [fst snd]; [intros K; lra|right; lra]). rewrite E in Q. rewrite Hp. exact Q. }
        intros a b Hab.
        pose proof (cvx_on a b c d Hab H1 ltac:(lra) ltac:(lra)) as Q1. pose proof (cvx_on a b c' d' Hab H2 ltac:(lra) ltac:(lra)) as Q2.
        fold x1 in Q1. fold x2 in Q2.
        assert (AFF : (x1 - x2) * side a b p = (px p - x2) * side a b (x1, py p) + (x1 - px p) * side a b (x2, py p)).
        { rewrite !side_level. unfold px, py; cbn [fst snd]. ring. }
        destruct (Rtotal_order (side a b p) 0) as [K|[K|K]]; [| |exact K]; exfalso.
        * assert (0 <= (px p - x2) * side a b (x1, py p)) by (apply Rmult_le_pos; lra). assert (0 <= (x1 - px p) * side a b (x2, py p)) by (apply Rmult_le_pos; lra).
          assert (0 < (x1 - x2) * - side a b p) by (apply Rmult_lt_0_compat; lra). lra.
        * rewrite K, Rmult_0_r in AFF.
          assert (0 <= (px p - x2) * side a b (x1, py p)) by (apply Rmult_le_pos; lra). assert (0 <= (x1 - px p) * side a b (x2, py p)) by (apply Rmult_le_pos; lra).
          assert (Z1 : side a b (x1, py p) = 0). { apply Rmult_eq_reg_l with (px p - x2); lra. }
          assert (Z2 : side a b (x2, py p) = 0). { apply Rmult_eq_reg_l with (x1 - px p); lra. }
          destruct (cvx_touch a b c d Hab H1 ltac:(lra) ltac:(lra) Z1) as [T1 T1']. specialize (T1 ltac:(lra)).
          destruct (cvx_touch a b c' d' Hab H2 ltac:(lra) ltac:(lra) Z2) as [T2' T2]. specialize (T2 ltac:(lra)).
          assert (FLAT : py a <> py b -> False).
          { intros N. assert (ZZ : (py b - py a) * (x1 - x2) = 0). { rewrite side_level in Z1, Z2. cbn [px py fst snd] in Z1, Z2. unfold px, py in *. lra. }
            apply Rmult_integral in ZZ. destruct ZZ; lra. }
          assert (E1 : py p = py c). { destruct (Req_dec (py p) (py c)) as [|N]; [easy|]. exfalso. specialize (T1' N). apply FLAT. destruct T1 as [<-|<-], T1' as [<-|<-]; lra. }
          assert (E2 : py p = py d'). { destruct (Req_dec (py p) (py d')) as [|N]; [easy|]. exfalso. specialize (T2' N). apply FLAT. destruct T2 as [<-|<-], T2' as [<-|<-]; lra. }
          assert (EC : c = (x1, py p)). { apply point_eq; [|symmetry; exact E1]. unfold x1, xat; cbn [fst snd px]. rewrite E1. unfold px; cbn [fst]. field. lra. }
          assert (ED : d' = (x2, py p)). { apply point_eq; [|symmetry; exact E2]. unfold x2, xat; cbn [fst snd px]. rewrite E2. unfold px; cbn [fst]. field. lra. }
          apply NO. exists (a, b). split; [exact Hab|]. cbn [fst snd].
          assert (N12 : c <> d') by (rewrite EC, ED; intros K'; injection K'; lra).
          assert (ON : on_seg d' c p).
          { exists ((px p - x2) / (x1 - x2)). split.
            - split; [apply Rmult_le_pos; [lra|left; apply Rinv_0_lt_compat; lra]|]. apply Rmult_le_reg_r with (x1 - x2); [lra|]. field_simplify; lra.
            - rewrite EC, ED. unfold lerp; apply point_eq; cbn [px py fst snd]; unfold px, py; cbn [fst snd]; field; lra. }
          destruct T1 as [<-|<-], T2 as [<-|<-]; try easy. now apply on_seg_flip.
      + intros SI. pose proof (SI _ _ H1). pose proof (SI _ _ H2). rewrite Rlt_bool_true by lra. rewrite Rlt_bool_false by lra. easy.
    - assert (NU : forall e, In e L -> upb p e = false).
      { intros e He. destruct (upb p e) eqn:E; [|easy]. rewrite (par_unique _ L e) in EU; [congruence|apply cvx_NoDup|easy|]. intros; now apply up_unique. }
      assert (NDn : forall e, In e L -> downb p e = false).
      { intros e He. destruct (downb p e) eqn:E; [|easy]. rewrite (par_unique _ L e) in PS; [congruence|apply cvx_NoDup|easy|]. intros; now apply down_unique. }
      rewrite par_false. 2:{ intros e He. unfold crossb. now rewrite NU, NDn. }
      split; [discriminate|]. intros SI. exfalso. now apply (inside_straddles l p).
  Qed.
End Convex.
Lemma path_nondeg {A} (b : A) t z : NoDup (b :: t) -> ~ In z t -> (t = [] -> b <> z) -> forall e, In e (path_pairs b t z) -> fst e <> snd e.
Proof.
  revert b. induction t as [|c t IH]; intros b ND NI NE e; cbn [path_pairs].
  - intros [<-|[]]. cbn. auto.
  - inversion ND as [|x y N1 N2]; subst. intros [<-|He]; [cbn; intros ->; apply N1; cbn; auto|]. apply (IH c); auto; cbn in NI; [tauto|]. intros _ ->. apply NI; auto.
Qed.
(** For a strictly convex polygon with any number of vertices, listed in
    either direction, and a point off the outline: contains means "inside". *)
Theorem C71_convex_R : forall (vs : list (vec R)) (p : vec R) (allow : bool) (b : bool),
  (2 <= List.length vs)%nat -> ~ on_outline (map pt vs) (pt p) ->
  Polygon2D_contains vs p allow = Ok b ->
  (strictly_convex (map pt vs) -> (b = true <-> strictly_inside (map pt vs) (pt p))) /\
  (strictly_convex (rev (map pt vs)) -> (b = true <-> strictly_inside (rev (map pt vs)) (pt p))).
Proof.
  intros vs p allow b HL NO HC.
  assert (NE : map pt vs <> []) by (destruct vs; [cbn in HL; lia|discriminate]).
  assert (G : NoDup (map pt vs) -> b = par (crossb (pt p)) (closed_edges (map pt vs))).
  { intros ND. rewrite contains_parity in HC; [congruence|easy|]. intros _ e. rewrite <- cyc_pairs_closed. destruct vs as [|v0 [|v1 vs]]; cbn in HL; try lia.
    cbn [map cyc_pairs] in *. apply path_nondeg; [easy| |discriminate]. now inversion ND. }
  split; intros SC.
  - rewrite G by apply SC. now apply convex_parity.
  - assert (ND : NoDup (map pt vs)). { rewrite <- rev_involutive. apply NoDup_rev. apply SC. }
    rewrite G by easy. rewrite <- (convex_parity (rev (map pt vs)) (pt p) SC).
    + rewrite (par_perm _ _ _ (closed_rev (map pt vs))), par_map. rewrite (par_ext (fun a => crossb (pt p) (snd a, fst a)) (crossb (pt p))); [tauto|]. intros; apply crossb_flip.
    + intros E. apply NE. rewrite <- (rev_involutive (map pt vs)), E. reflexivity.
    + intros (e & He & Hs). apply (Permutation_in _ (closed_rev (map pt vs))) in He. apply in_map_iff in He. destruct He as (e' & <- & He'). apply NO. exists e'. split; [easy|]. now apply on_seg_flip.
Qed.
Example C71_nonvacuous : let vs := [mkVec 0 0 true; mkVec 4 0 true; mkVec 4 4 true; mkVec 0 4 true] in
  strictly_convex (map pt vs) /\ strictly_inside (map pt vs) (1, 1) /\ ~ strictly_inside (map pt vs) (5, 1).
Proof.
  cbn. split; [split|split].
  - unfold pt; cbn. repeat constructor; cbn; intros K; repeat (destruct K as [K|K]; [injection K; lra|]); exact K.
  - intros a b v He Hv Na Nb. unfold pt in *; cbn in He, Hv.
    destruct He as [E|[E|[E|[E|[]]]]]; injection E as <- <-; destruct Hv as [<-|[<-|[<-|[<-|[]]]]]; try (exfalso; apply Na; reflexivity); try (exfalso; apply Nb; reflexivity); rewrite side_level; cbn; lra.
  - intros a b He. unfold pt in *; cbn in He. destruct He as [E|[E|[E|[E|[]]]]]; injection E as <- <-; rewrite side_level; cbn; lra.
  - intros K. assert (H : side (4, 0) (4, 4) (5, 1) > 0) by (apply K; unfold pt; cbn; auto). rewrite side_level in H. cbn in H. lra.
Qed.
(** Triangles, with "inside" as a convex combination of the corners. *)
Theorem C71_triangle_R : forall (a b c p : vec R) (allow : bool),
  ~ collinear (pt a) (pt b) (pt c) -> ~ on_outline (map pt [a; b; c]) (pt p) ->
  exists r, Polygon2D_contains [a; b; c] p allow = Ok r /\
    (r = true <-> in_triangle (pt a) (pt b) (pt c) (pt p)).
Proof.
  intros a b c p allow NC NO.
  assert (HT : exists r, Polygon2D_contains [a; b; c] p allow = Ok r).
  { eexists. apply contains_parity; [easy|]. intros _ e He. cbn in He. intros E. apply NC. unfold collinear, cross, psub.
    destruct He as [<-|[<-|[<-|[]]]]; cbn [fst snd] in E; rewrite E; cbn; ring. }
  destruct HT as [r Hr]. exists r. split; [easy|].
  destruct (C71_convex_R [a; b; c] p allow r ltac:(cbn; lia) NO Hr) as [H1 H2]. cbn [map rev app] in *.
  assert (OFF : forall x y, In (x, y) [(pt a, pt b); (pt b, pt c); (pt c, pt a)] -> ~ on_seg x y (pt p)).
  { intros x y Hxy K. apply NO. now exists (x, y). }
  set (A := pt a) in *. set (B := pt b) in *. set (C := pt c) in *. set (P := pt p) in *. clearbody A B C P.
  change (side A B C <> 0) in NC. 
  assert (TRI : in_triangle A B C P <-> (side A B P * side A B C > 0 /\ side B C P * side A B C > 0 /\ side C A P * side A B C > 0)).
  { assert (SUM : side A B P + side B C P + side C A P = side A B C) by (rewrite !side_level; ring).
    split.
    - intros (u & v & w & Hu & Hv & Hw & S & Ex & Ey).
      assert (EA : side A B P = w * side A B C). { rewrite !side_level. rewrite Ex, Ey. replace u with (1 - v - w) by lra. ring. }
      assert (EB : side B C P = u * side A B C). { rewrite !side_level. rewrite Ex, Ey. replace v with (1 - u - w) by lra. ring. }
      assert (EC : side C A P = v * side A B C). { rewrite !side_level. rewrite Ex, Ey. replace w with (1 - u - v) by lra. ring. }
      assert (SQ : 0 < side A B C * side A B C). { pose proof (Rle_0_sqr (side A B C)). unfold Rsqr in *. assert (side A B C * side A B C <> 0); [|lra]. intros Z. apply Rmult_integral in Z. tauto. }
      assert (w <> 0). { intros Z. apply (OFF A B); [cbn; auto|]. exists v. split; [lra|]. unfold lerp; apply point_eq; cbn [px py fst snd]; fold (px A) (px B) (py A) (py B) (px P) (py P); rewrite ?Ex, ?Ey, Z; replace u with (1 - v) by lra; ring. }
      assert (u <> 0). { intros Z. apply (OFF B C); [cbn; auto|]. exists w. split; [lra|]. unfold lerp; apply point_eq; cbn [px py fst snd]; fold (px B) (px C) (py B) (py C) (px P) (py P); rewrite ?Ex, ?Ey, Z; replace v with (1 - w) by lra; ring. }
      assert (v <> 0). { intros Z. apply (OFF C A); [cbn; auto|]. exists u. split; [lra|]. unfold lerp; apply point_eq; cbn [px py fst snd]; fold (px A) (px C) (py A) (py C) (px P) (py P); rewrite ?Ex, ?Ey, Z; replace w with (1 - u) by lra; ring. }
      rewrite EA, EB, EC, !Rmult_assoc. repeat split; apply Rmult_lt_0_compat; lra.
    - intros (K1 & K2 & K3). set (D := side A B C) in *.
      assert (Q : forall x, x * D > 0 -> 0 <= x / D).
      { intros x Hx. replace (x / D) with (x * D * / (D * D)) by (field; easy). apply Rmult_le_pos; [lra|]. left. apply Rinv_0_lt_compat.
        pose proof (Rle_0_sqr D). unfold Rsqr in *. assert (D * D <> 0); [|lra]. intros Z. apply Rmult_integral in Z. tauto. }
      exists (side B C P / D), (side C A P / D), (side A B P / D). split; [now apply Q|]. split; [now apply Q|]. split; [now apply Q|].
      split; [rewrite <- Rdiv_plus_distr, <- Rdiv_plus_distr; replace (side B C P + side C A P + side A B P) with D by lra; field; easy|].
      split; apply Rmult_eq_reg_r with D; try easy.
      + replace ((side B C P / D * px A + side C A P / D * px B + side A B P / D * px C) * D) with (side B C P * px A + side C A P * px B + side A B P * px C) by (field; easy).
        unfold D. rewrite !side_level. ring.
      + replace ((side B C P / D * py A + side C A P / D * py B + side A B P / D * py C) * D) with (side B C P * py A + side C A P * py B + side A B P * py C) by (field; easy).
        unfold D. rewrite !side_level. ring. }
  rewrite TRI.
  assert (DI : A <> B /\ B <> C /\ C <> A). { repeat split; intros E; apply NC; rewrite side_level; rewrite ?E; rewrite <- ?E; ring. }
  destruct DI as (D1 & D2 & D3).
  destruct (Rtotal_order (side A B C) 0) as [K|[K|K]]; [|easy|].
  - rewrite H2.
    + split.
      * intros SI. assert (S1 : side C B P > 0) by (apply SI; cbn; auto). assert (S2 : side B A P > 0) by (apply SI; cbn; auto). assert (S3 : side A C P > 0) by (apply SI; cbn; auto).
        assert (side B C P = - side C B P) by (rewrite !side_level; ring). assert (side A B P = - side B A P) by (rewrite !side_level; ring). assert (side C A P = - side A C P) by (rewrite !side_level; ring).
        repeat split; apply Rlt_gt; rewrite <- Rmult_opp_opp; apply Rmult_lt_0_compat; lra.
      * intros (K1 & K2 & K3). assert (SG : forall x, x * side A B C > 0 -> x < 0).
        { intros x Hx. destruct (Rlt_dec x 0); [easy|]. exfalso. assert (0 <= x * - side A B C) by (apply Rmult_le_pos; lra). lra. }
        apply SG in K1, K2, K3. intros x y Hxy. cbn in Hxy.
        destruct Hxy as [E|[E|[E|[]]]]; injection E as <- <-; [assert (side C B P = - side B C P) by (rewrite !side_level; ring)|assert (side B A P = - side A B P) by (rewrite !side_level; ring)|assert (side A C P = - side C A P) by (rewrite !side_level; ring)]; lra.
    + split; [repeat constructor; cbn; intuition congruence|]. intros x y v Hxy Hv Nx Ny. cbn in Hxy, Hv.
      assert (side C B A = - side A B C) by (rewrite !side_level; ring). assert (side B A C = - side A B C) by (rewrite !side_level; ring). assert (side A C B = - side A B C) by (rewrite !side_level; ring).
      destruct Hxy as [E|[E|[E|[]]]]; injection E as <- <-; destruct Hv as [<-|[<-|[<-|[]]]]; try easy; lra.
  - rewrite H1.
    + split.
      * intros SI. assert (S1 : side A B P > 0) by (apply SI; cbn; auto). assert (S2 : side B C P > 0) by (apply SI; cbn; auto). assert (S3 : side C A P > 0) by (apply SI; cbn; auto).
        repeat split; apply Rmult_lt_0_compat; lra.
      * intros (K1 & K2 & K3). assert (SG : forall x, x * side A B C > 0 -> x > 0).
        { intros x Hx. destruct (Rlt_dec 0 x); [easy|]. exfalso. assert (0 <= - x * side A B C) by (apply Rmult_le_pos; lra). lra. }
        apply SG in K1, K2, K3. intros x y Hxy. cbn in Hxy. destruct Hxy as [E|[E|[E|[]]]]; injection E as <- <-; lra.
    + split; [repeat constructor; cbn; intuition congruence|]. intros x y v Hxy Hv Nx Ny. cbn in Hxy, Hv.
      assert (side B C A = side A B C) by (rewrite !side_level; ring). assert (side C A B = side A B C) by (rewrite !side_level; ring).
      destruct Hxy as [E|[E|[E|[]]]]; injection E as <- <-; destruct Hv as [<-|[<-|[<-|[]]]]; try easy; lra.
Qed.
