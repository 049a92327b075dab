(** * P_Hull: properties C74, C75, C99 (convex hull, wrapping method) and C78 *)
From Coq Require Import ZArith List Bool String Reals Lra Lia Psatz Permutation Classical.
From Flocq Require Import Core.
From Verif Require Import Base Types NumR R_Tac Spec Spec2 Abs M_Vector M_Triangle M_Segment M_Polygon M_Hull
  P_Vector L_Seg P_Segment P_Polygon P_Polygon2 P_Polygon3.
Import ListNotations.
Local Open Scope R_scope.

Lemma area_side (a b c : vec R) : double_signed_area_st a b c = side (pt a) (pt b) (pt c).
Proof. unfold double_signed_area_st, side, cross, psub, pt; cbn. rnum. cbn. unfold px, py; cbn. ring. Qed.
Lemma py_get_nat {A} (l : list A) i a : nth_error l i = Some a -> py_get l (Z.of_nat i) = Ok a.
Proof.
  intros E. assert (i < List.length l)%nat by (apply nth_error_Some; congruence). unfold py_get, py_index.
  rewrite (proj2 (Z.ltb_ge _ _)) by lia. rewrite (proj2 (Z.leb_le _ _)), (proj2 (Z.ltb_lt _ _)) by lia. cbn [andb]. now rewrite Nat2Z.id, E.
Qed.
Lemma py_get_nth {A} (l : list A) i d : (i < List.length l)%nat -> py_get l (Z.of_nat i) = Ok (nth i l d).
Proof. intros H. apply py_get_nat. now apply nth_error_nth'. Qed.

(** ** The lexicographic minimum *)
Definition lexle (p q : point) : Prop := px p < px q \/ (px p = px q /\ py p <= py q).
Lemma lexle_trans p q r : lexle p q -> lexle q r -> lexle p r.
Proof. unfold lexle. intros [?|[? ?]] [?|[? ?]]; [left|left|left|right]; try lra. Qed.
Lemma min_loop_R (l pre : list (vec R)) mp mi d :
  (mi < List.length (pre ++ l))%nat -> nth mi (pre ++ l) d = mp -> (forall v, In v pre -> lexle (pt mp) (pt v)) ->
  let r := min_loop l (List.length pre) mp mi in
  (r < List.length (pre ++ l))%nat /\ forall v, In v (pre ++ l) -> lexle (pt (nth r (pre ++ l) d)) (pt v).
Proof.
  revert pre mp mi. induction l as [|p l IH]; intros pre mp mi H1 H2 H3; cbn [min_loop].
  - split; [easy|]. rewrite H2, app_nil_r. easy.
  - change (pre ++ p :: l) with (pre ++ [p] ++ l) in *. rewrite app_assoc in *.
    replace (S (List.length pre)) with (List.length (pre ++ [p])) by (rewrite app_length; cbn; lia).
    rnum. destruct (Rlt_bool (vx p) (vx mp) || (Req_bool (vx mp) (vx p) && Rlt_bool (vy p) (vy mp))) eqn:E.
    + assert (LT : vx p < vx mp \/ (vx mp = vx p /\ vy p < vy mp)). { apply orb_true_iff in E. destruct E as [E|E]; [left; now apply Rlt_bool_iff|]. apply andb_true_iff in E. destruct E as [E1 E2]. right. split; [now apply Req_bool_iff|now apply Rlt_bool_iff]. }
      apply IH.
      * rewrite !app_length; cbn. lia.
      * rewrite <- app_assoc. cbn [app]. rewrite app_nth2, Nat.sub_diag by lia. reflexivity.
      * intros v Hv. apply in_app_iff in Hv. destruct Hv as [Hv|[<-|[]]]; [|right; lra]. apply lexle_trans with (pt mp); [|auto]. unfold lexle, pt, px, py; cbn [fst snd]. lra.
    + apply IH; [easy|easy|]. intros v Hv. apply in_app_iff in Hv. destruct Hv as [Hv|[<-|[]]]; [auto|].
      apply orb_false_iff in E. destruct E as [E1 E2]. assert (G1 : ~ vx p < vx mp) by (rewrite <- Rlt_bool_iff, E1; easy).
      unfold lexle, pt, px, py; cbn [fst snd]. destruct (Rlt_dec (vx mp) (vx p)); [now left|]. right. split; [lra|].
      rewrite (Req_bool_true (vx mp) (vx p)) in E2 by lra. cbn [andb] in E2. destruct (Rlt_bool_spec (vy p) (vy mp)); [discriminate|lra].
Qed.
Lemma min_index_R (pts : list (vec R)) d : pts <> [] -> exists i, get_min_point_index pts = Some i /\ (i < List.length pts)%nat /\ forall v, In v pts -> lexle (pt (nth i pts d)) (pt v).
Proof.
  intros H. destruct pts as [|p l]; [easy|]. cbn [get_min_point_index]. eexists. split; [reflexivity|].
  apply (min_loop_R (p :: l) [] p 0%nat d); cbn; try easy; lia.
Qed.

(** ** Scanning for the next vertex *)
Definition avail (cur : nat) (used : list nat) (i : nat) : bool := negb (Nat.eqb i cur) && negb (existsb (Nat.eqb i) used).
Lemma avail_iff cur used i : avail cur used i = true <-> i <> cur /\ ~ In i used.
Proof.
  unfold avail. rewrite andb_true_iff, !negb_true_iff, Nat.eqb_neq. split; intros [A B]; (split; [easy|]).
  - intros K. assert (existsb (Nat.eqb i) used = true) by (apply existsb_exists; exists i; split; [easy|apply Nat.eqb_refl]). congruence.
  - apply not_true_iff_false. intros K. apply existsb_exists in K. destruct K as (x & Hx & E). apply Nat.eqb_eq in E. subst. easy.
Qed.
Lemma find_filter_seq (p : nat -> bool) s n c : find p (seq s n) = Some c ->
  filter p (seq s n) = c :: filter p (seq (S c) (s + n - S c)) /\ (s <= c < s + n)%nat.
Proof.
  revert s. induction n as [|n IH]; intros s; cbn [seq find filter]; [easy|]. destruct (p s) eqn:E.
  - intros [= <-]. split; [|lia]. do 2 f_equal. f_equal. lia.
  - intros F. destruct (IH _ F) as [I1 I2]. split; [|lia]. rewrite I1. do 3 f_equal. lia.
Qed.
Lemma last_cons_def {A} (a b : A) l : last (b :: l) a = last l b.
Proof. revert a b. induction l as [|c l IH]; intros a b; [easy|]. change (last (b :: c :: l) a) with (last (c :: l) a). now rewrite !IH. Qed.
Lemma last_in {A} (b : A) l : In (last l b) (b :: l).
Proof. revert b. induction l as [|c l IH]; intros b; [cbn; auto|]. rewrite last_cons_def. right. apply IH. Qed.
Section Wrap.
  Variable (pts : list (vec R)) (d : vec R).
  Let n := List.length pts.
  Definition P (i : nat) : point := pt (nth i pts d).
  (** One scan over R: it never raises and returns the first candidate or an
      available index. *)
  Lemma wrap_scan_in cur used is cand : (cand < n)%nat -> (forall i, In i is -> (i < n)%nat) ->
    exists c, wrap_scan pts (nth cur pts d) cur used is cand = Ok c /\ (c = cand \/ (In c is /\ avail cur used c = true)).
  Proof.
    revert cand. induction is as [|i is IH]; intros cand Hc Hi; cbn [wrap_scan]; [now exists cand; auto|].
    assert (Hi' : forall j, In j is -> (j < n)%nat) by (intros; apply Hi; cbn; auto). pose proof (Hi i ltac:(cbn; auto)) as Hii.
    destruct (Nat.eqb i cur || existsb (Nat.eqb i) used) eqn:E.
    - destruct (IH cand Hc Hi') as (c & -> & [K|K]); exists c; (split; [easy|]); [now left|right; cbn; tauto].
    - assert (AV : avail cur used i = true) by (unfold avail; rewrite <- negb_orb, E; easy).
      rewrite (py_get_nth _ _ d Hc), (py_get_nth _ _ d Hii). cbn [bind]. rnum.
      assert (G : forall c', (c' = cand \/ c' = i) -> exists c, wrap_scan pts (nth cur pts d) cur used is c' = Ok c /\ (c = cand \/ (In c (i :: is) /\ avail cur used c = true))).
      { intros c' [-> | ->]; [destruct (IH cand Hc Hi') as (c & -> & [K|K])|destruct (IH i Hii Hi') as (c & -> & [K|K])]; exists c; (split; [easy|]); subst; cbn; tauto. }
      destruct (Rlt_bool _ 0); [apply G; auto|]. destruct (Rlt_bool _ _); [|apply G; auto].
      rewrite !dist2_R. cbn [bind]. apply G. destruct (Rlt_bool _ _); auto.
  Qed.
  (** general position *)
  Definition gp : Prop := (forall i j, (i < n)%nat -> (j < n)%nat -> i <> j -> P i <> P j) /\
    (forall i j k, (i < n)%nat -> (j < n)%nat -> (k < n)%nat -> i <> j -> j <> k -> i <> k -> Rabs (side (P i) (P j) (P k)) >= 1/1000000).
  Lemma gp_pos i j k : gp -> (i < n)%nat -> (j < n)%nat -> (k < n)%nat -> i <> j -> j <> k -> i <> k ->
    side (P i) (P j) (P k) >= 1/1000000 \/ side (P i) (P j) (P k) < 0.
  Proof. intros [_ G] Hi Hj Hk A B C. specialize (G i j k Hi Hj Hk A B C). unfold Rabs in G. destruct (Rcase_abs _); [right|left]; lra. Qed.

  Definition cone (dr v : point) : Prop := 0 < cross dr v \/ (cross dr v = 0 /\ dot dr v < 0).
  Lemma cone_pos dr a b : cone dr a -> cone dr b -> cross a b > 0 -> cross dr a > 0.
  Proof.
    intros [A|[A1 A2]] B C; [easy|]. exfalso.
    assert (I : (px dr * px dr + py dr * py dr) * cross a b = dot dr a * cross dr b - cross dr a * dot dr b) by (unfold cross, dot; ring).
    assert (B0 : 0 <= cross dr b) by (destruct B as [B|[B _]]; lra).
    assert (N : 0 < px dr * px dr + py dr * py dr).
    { assert (0 <= px dr * px dr + py dr * py dr) by nra. destruct (Req_dec (px dr * px dr + py dr * py dr) 0) as [Z|Z]; [|lra]. exfalso.
      assert (px dr = 0) by nra. assert (py dr = 0) by nra. unfold dot in A2. rewrite H0, H1 in A2. lra. }
    assert (0 < (px dr * px dr + py dr * py dr) * cross a b) by (apply Rmult_lt_0_compat; lra).
    assert (0 <= - dot dr a * cross dr b) by (apply Rmult_le_pos; lra). rewrite A1 in I. lra.
  Qed.
  Lemma cone_trans dr a b c : cone dr a -> cone dr b -> cone dr c -> cross a b > 0 -> cross b c > 0 -> cross a c > 0.
  Proof.
    intros A B C AB BC. pose proof (cone_pos dr a b A B AB) as DA. pose proof (cone_pos dr b c B C BC) as DB.
    assert (DC : 0 <= cross dr c) by (destruct C as [C|[C _]]; lra).
    assert (I : cross a c * cross dr b = cross a b * cross dr c + cross b c * cross dr a) by (unfold cross; ring).
    assert (0 <= cross a b * cross dr c) by (apply Rmult_le_pos; lra). assert (0 < cross b c * cross dr a) by (apply Rmult_lt_0_compat; lra).
    destruct (Rlt_dec 0 (cross a c)); [easy|]. exfalso. assert (0 <= - cross a c * cross dr b) by (apply Rmult_le_pos; lra). lra.
  Qed.
  (** everything else lies in a half plane seen from [cur] *)
  Definition extreme (cur : nat) : Prop := exists dr, forall k, (k < n)%nat -> k <> cur -> cone dr (psub (P k) (P cur)).
  Lemma side_trans cur i j k : extreme cur -> (i < n)%nat -> (j < n)%nat -> (k < n)%nat -> i <> cur -> j <> cur -> k <> cur ->
    side (P cur) (P i) (P j) > 0 -> side (P cur) (P j) (P k) > 0 -> side (P cur) (P i) (P k) > 0.
  Proof. intros [dr E] Hi Hj Hk A B C. unfold side. apply (cone_trans dr); auto. Qed.
  Lemma side_swap a b c : side a c b = - side a b c. Proof. rewrite !side_level. ring. Qed.
  Lemma side_rot a b c : side b c a = side a b c. Proof. rewrite !side_level. ring. Qed.
  Lemma wrap_scan_best cur used is cand seen : gp -> extreme cur -> (cur < n)%nat ->
    (cand < n)%nat -> cand <> cur -> (forall i, In i is -> (i < n)%nat) -> (forall i, In i seen -> (i < n)%nat /\ i <> cur) ->
    (forall i, In i seen -> i <> cand -> side (P cur) (P cand) (P i) > 0) -> NoDup is -> ~ In cand is ->
    exists c, wrap_scan pts (nth cur pts d) cur used is cand = Ok c /\
      forall i, (In i seen \/ i = cand \/ (In i is /\ avail cur used i = true)) -> i <> c -> side (P cur) (P c) (P i) > 0.
  Proof.
    intros GP EX Hcur. revert cand seen. induction is as [|i is IH]; intros cand seen Hc Ncand Hi Hs HB ND NI; cbn [wrap_scan].
    - exists cand. split; [easy|]. intros i [Hi'|[-> |[[] _]]] N; [auto|easy].
    - assert (Hi' : forall j, In j is -> (j < n)%nat) by (intros; apply Hi; cbn; auto). pose proof (Hi i ltac:(cbn; auto)) as Hii.
      inversion ND as [|x y ND1 ND2]; subst.
      assert (NI' : ~ In cand is) by (cbn in NI; tauto). assert (Nic : cand <> i) by (cbn in NI; intros ->; tauto).
      destruct (Nat.eqb i cur || existsb (Nat.eqb i) used) eqn:E.
      + assert (AV : avail cur used i = false) by (unfold avail; rewrite <- negb_orb, E; easy).
        destruct (IH cand seen Hc Ncand Hi' Hs HB ND2 NI') as (c & -> & K). exists c. split; [easy|]. intros j [Hj|[Hj|[[<-|Hj] Hj']]] N; [apply K; auto|apply K; auto|congruence|apply K; auto].
      + assert (AV : avail cur used i = true) by (unfold avail; rewrite <- negb_orb, E; easy).
        apply avail_iff in AV as [Nicur _].
        rewrite (py_get_nth _ _ d Hc), (py_get_nth _ _ d Hii). cbn [bind]. rewrite area_side. fold (P cur) (P cand) (P i). rnum.
        destruct (gp_pos cur cand i GP Hcur Hc Hii (not_eq_sym Ncand) Nic (not_eq_sym Nicur)) as [G|G].
        * rewrite Rlt_bool_false by lra. rewrite Rlt_bool_false by lra.
          destruct (IH cand (i :: seen) Hc Ncand Hi') as (c & EQ & K); [| |easy|easy|].
          { intros j [<-|Hj]; [easy|auto]. } { intros j [<-|Hj] N; [lra|auto]. }
          exists c. split; [exact EQ|]. intros j Hj N. apply K; [|easy]. cbn in *. destruct Hj as [?|[?|[[?|?] ?]]]; tauto.
        * rewrite Rlt_bool_true by lra.
          destruct (IH i (cand :: seen) Hii Nicur Hi') as (c & EQ & K); [| |easy|easy|].
          { intros j [<-|Hj]; [easy|auto]. }
          { assert (GI : side (P cur) (P i) (P cand) > 0) by (rewrite side_swap; lra).
            intros j [<-|Hj] N; [easy|]. destruct (Nat.eq_dec j cand) as [->|Nj]; [easy|]. apply side_trans with cand; auto; now apply Hs. }
          exists c. split; [exact EQ|]. intros j Hj N. apply K; [|easy]. cbn in *. destruct Hj as [?|[?|[[?|?] ?]]]; [tauto|subst; tauto|subst; tauto|tauto].
  Qed.
  Lemma exists_best cur S : gp -> extreme cur -> (cur < n)%nat -> S <> [] -> (forall k, In k S -> (k < n)%nat /\ k <> cur) ->
    exists m, In m S /\ forall k, In k S -> k <> m -> side (P cur) (P m) (P k) > 0.
  Proof.
    intros GP EX Hcur. induction S as [|a S IH]; [easy|]. intros _ HS. destruct S as [|b S].
    - exists a. split; [cbn; auto|]. intros k [<-|[]] N. easy.
    - destruct IH as (m & Hm & K); [discriminate|intros; apply HS; cbn in *; tauto|].
      destruct (Nat.eq_dec a m) as [->|Nam]. { exists m. split; [cbn; auto|]. intros k [<-|Hk] N; [easy|auto]. }
      destruct (HS a ltac:(cbn; auto)) as [Ha Na]. destruct (HS m (or_intror Hm)) as [Hm1 Hm2].
      destruct (gp_pos cur m a GP Hcur Hm1 Ha (not_eq_sym Hm2) (not_eq_sym Nam) (not_eq_sym Na)) as [G|G].
      + exists m. split; [now right|]. intros k [<-|Hk] N; [lra|auto].
      + exists a. split; [now left|]. assert (GA : side (P cur) (P a) (P m) > 0) by (rewrite side_swap; lra).
        intros k [<-|Hk] N; [easy|]. destruct (HS k (or_intror Hk)) as [Hk1 Hk2].
        destruct (Nat.eq_dec k m) as [->|Nk]; [easy|]. apply side_trans with m; auto.
  Qed.

  (** ** The loop *)
  Definition hull_edge (i j : nat) : Prop := (i < n)%nat /\ (j < n)%nat /\ i <> j /\ forall k, (k < n)%nat -> k <> i -> k <> j -> side (P i) (P j) (P k) > 0.
  Fixpoint chain (Rel : nat -> nat -> Prop) (a : nat) (l : list nat) : Prop :=
    match l with [] => True | b :: l' => Rel a b /\ chain Rel b l' end.
  Lemma chain_snoc Rel a l b : chain Rel a l -> Rel (last l a) b -> chain Rel a (l ++ [b]).
  Proof. revert a. induction l as [|c l IH]; intros a; cbn; [easy|]. intros [H1 H2] H3. split; [easy|]. apply IH; [easy|]. now rewrite <- (last_cons_def a c). Qed.
  Lemma chain_pred Rel a l m : chain Rel a l -> NoDup (a :: l) -> In m l -> exists p, Rel p m /\ p <> last l a /\ In p (a :: l).
  Proof.
    revert a. induction l as [|b l IH]; intros a HC ND Hm; [easy|]. destruct HC as [H1 H2]. inversion ND as [|x y N1 N2]; subst.
    destruct Hm as [<-|Hm].
    - exists a. split; [easy|]. split; [|cbn; auto]. rewrite last_cons_def. intros E. apply N1. rewrite E. apply last_in.
    - destruct (IH b H2 N2 Hm) as (p & A & B & C). exists p. split; [easy|]. split; [|now right]. now rewrite last_cons_def.
  Qed.
  Definition lexmin (mi : nat) : Prop := forall k, (k < n)%nat -> lexle (P mi) (P k).
  Lemma extreme_min mi : gp -> (mi < n)%nat -> lexmin mi -> extreme mi.
  Proof.
    intros [G _] Hmi LM. exists (0, -1). intros k Hk N. specialize (LM k Hk). specialize (G k mi Hk Hmi N).
    unfold cone, cross, dot, psub, px, py; cbn [fst snd]. unfold lexle, px, py in LM.
    destruct LM as [LM|[L1 L2]]; [left; lra|]. right. split; [lra|]. destruct (Req_dec (snd (P mi)) (snd (P k))); [|lra].
    exfalso. apply G. apply point_eq; unfold px, py; easy.
  Qed.
  Lemma extreme_edge p cur : gp -> hull_edge p cur -> extreme cur.
  Proof.
    intros [G _] (Hp & Hc & N & HE). exists (psub (P cur) (P p)). intros k Hk Nk.
    destruct (Nat.eq_dec k p) as [->|Nkp].
    - right. specialize (G p cur Hp Hc N). split; [unfold cross, psub, px, py; cbn [fst snd]; ring|].
      set (dx := px (P cur) - px (P p)). set (dy := py (P cur) - py (P p)).
      replace (dot _ _) with (- (dx * dx + dy * dy)) by (unfold dx, dy, dot, psub, px, py; cbn [fst snd]; ring).
      assert (dx <> 0 \/ dy <> 0). { apply NNPP. intros K. apply G. apply point_eq; unfold dx, dy in K; apply NNPP; intros K'; apply K; [left|right]; lra. }
      assert (0 <= dx * dx) by nra. assert (0 <= dy * dy) by nra. destruct H as [H|H].
      + assert (dx * dx <> 0) by (intros Z; apply Rmult_integral in Z; tauto). lra.
      + assert (dy * dy <> 0) by (intros Z; apply Rmult_integral in Z; tauto). lra.
    - left. specialize (HE k Hk Nkp Nk). unfold side in HE. unfold cross, psub, px, py in *; cbn [fst snd] in *. lra.
  Qed.
  Lemma first_avail cur used mi : (3 <= n)%nat -> (mi < n)%nat -> NoDup (mi :: used) -> cur = last used mi ->
    exists c0, find (avail cur used) (seq 0 n) = Some c0.
  Proof.
    intros Hn Hmi ND Hcur. destruct (find (avail cur used) (seq 0 n)) as [c0|] eqn:E; [now exists c0|]. exfalso.
    assert (N : forall i, (i < n)%nat -> avail cur used i = false) by (intros i Hi; apply (find_none _ _ E); apply in_seq; lia).
    destruct used as [|u us].
    - cbn in Hcur. subst cur. destruct (Nat.eq_dec mi 0) as [->|K].
      + specialize (N 1%nat ltac:(lia)). apply not_true_iff_false in N. apply N. apply avail_iff. split; [lia|easy].
      + specialize (N 0%nat ltac:(lia)). apply not_true_iff_false in N. apply N. apply avail_iff. split; [lia|easy].
    - specialize (N mi Hmi). apply not_true_iff_false in N. apply N. apply avail_iff. inversion ND as [|x y N1 N2]; subst. split; [|easy].
      intros E'. apply N1. rewrite E' at 1. rewrite last_cons_def. apply last_in.
  Qed.
  (** what one round does *)
  Lemma wrap_round cur used mi : (3 <= n)%nat -> (mi < n)%nat -> (cur < n)%nat -> NoDup (mi :: used) -> cur = last used mi -> (forall i, In i used -> (i < n)%nat) ->
    let c0 := first_candidate n cur used in
    exists c, wrap_scan pts (nth cur pts d) cur used (seq (S c0) (n - S c0)) c0 = Ok c /\ (c < n)%nat /\ c <> cur /\ ~ In c used /\
      (gp -> lexmin mi -> chain hull_edge mi used -> hull_edge cur c).
  Proof.
    intros Hn Hmi Hcn ND Hcur Hused. destruct (first_avail cur used mi Hn Hmi ND Hcur) as [c0 E].
    assert (EC : first_candidate n cur used = c0). { unfold first_candidate. change (fun i => negb (Nat.eqb i cur) && negb (existsb (Nat.eqb i) used)) with (avail cur used). now rewrite E. }
    rewrite EC. cbv zeta. destruct (find_filter_seq _ _ _ _ E) as [EF Hc0]. cbn [plus] in *.
    pose proof (find_some _ _ E) as [_ AV0].
    assert (IS : forall i, In i (seq (S c0) (n - S c0)) -> (i < n)%nat) by (intros i Hi; apply in_seq in Hi; lia).
    destruct (wrap_scan_in cur used (seq (S c0) (n - S c0)) c0 ltac:(lia) IS) as (c & Ec & Hc).
    assert (AC : avail cur used c = true /\ (c < n)%nat). { destruct Hc as [->|[Hc1 Hc2]]; [split; [easy|lia]|]. split; [easy|auto]. }
    destruct AC as [AC Hcn']. apply avail_iff in AC as [AC1 AC2].
    exists c. split; [easy|]. split; [easy|]. split; [easy|]. split; [easy|].
    intros GP LM CH.
    assert (EX : extreme cur).
    { destruct used as [|u us]; [cbn in Hcur; subst cur; now apply extreme_min|].
      assert (Hin : In cur (u :: us)) by (subst cur; rewrite last_cons_def; apply last_in).
      destruct (chain_pred hull_edge mi (u :: us) cur CH ND Hin) as (p & HP & _). now apply (extreme_edge p). }
    destruct (exists_best cur (filter (fun i => negb (Nat.eqb i cur)) (seq 0 n)) GP EX Hcn) as (m & Hm & HB).
    { intros K. assert (In c (filter (fun i => negb (Nat.eqb i cur)) (seq 0 n))). { apply filter_In. split; [apply in_seq; lia|]. apply negb_true_iff, Nat.eqb_neq. easy. } rewrite K in H. easy. }
    { intros k Hk. apply filter_In in Hk. destruct Hk as [K1 K2]. apply in_seq in K1. apply negb_true_iff, Nat.eqb_neq in K2. split; [lia|easy]. }
    apply filter_In in Hm. destruct Hm as [Hm1 Hm2]. apply in_seq in Hm1. apply negb_true_iff, Nat.eqb_neq in Hm2.
    assert (HEm : hull_edge cur m).
    { split; [easy|]. split; [lia|]. split; [auto|]. intros k Hk N1 N2. apply HB; [|easy]. apply filter_In. split; [apply in_seq; lia|]. now apply negb_true_iff, Nat.eqb_neq. }
    assert (NU : ~ In m used).
    { intros K. destruct (chain_pred hull_edge mi used m CH ND K) as (p & HP & NP & _). rewrite <- Hcur in NP.
      destruct HP as (P1 & P2 & P3 & P4). destruct HEm as (Q1 & Q2 & Q3 & Q4).
      specialize (P4 cur Hcn (not_eq_sym NP) (not_eq_sym Hm2)). specialize (Q4 p P1 NP P3).
      assert (side (P p) (P m) (P cur) = - side (P cur) (P m) (P p)) by (rewrite !side_level; ring). lra. }
    destruct (wrap_scan_best cur used (seq (S c0) (n - S c0)) c0 [] GP EX Hcn) as (c' & Ec' & Hbest); try easy; try lia.
    { apply avail_iff in AV0. tauto. } { apply seq_NoDup. } { rewrite in_seq. lia. }
    rewrite Ec in Ec'. injection Ec' as <-.
    destruct (Nat.eq_dec m c) as [->|Nmc]; [easy|]. exfalso.
    assert (S1 : side (P cur) (P c) (P m) > 0).
    { apply Hbest; [|easy]. right. assert (IM : In m (c0 :: filter (avail cur used) (seq (S c0) (n - S c0)))). { rewrite <- EF. apply filter_In. split; [apply in_seq; lia|]. now apply avail_iff. }
      destruct IM as [<-|IM]; [now left|]. right. now apply filter_In in IM. }
    destruct HEm as (_ & _ & _ & Q4). specialize (Q4 c Hcn' AC1 (not_eq_sym Nmc)). rewrite side_swap in S1. lra.
  Qed.
  Lemma wrap_loop_spec fuel mi cur used verts : (3 <= n)%nat -> (mi < n)%nat -> NoDup (mi :: used) -> (forall i, In i used -> (i < n)%nat) ->
    cur = last used mi -> (fuel + List.length used = S n)%nat ->
    exists new, wrap_loop fuel pts mi cur used verts = Ok (verts ++ map (fun i => nth i pts d) (new ++ [mi])) /\
      NoDup (mi :: used ++ new) /\ (forall i, In i new -> (i < n)%nat) /\ (used = [] -> new <> []) /\
      (gp -> lexmin mi -> chain hull_edge mi used -> chain hull_edge mi (used ++ new ++ [mi])).
  Proof.
    intros Hn Hmi. revert cur used verts. induction fuel as [|fuel IH]; intros cur used verts ND Hused Hcur HF.
    - exfalso. assert (L : (List.length used <= List.length (seq 0 n))%nat).
      { apply NoDup_incl_length; [now inversion ND|]. intros i Hi. apply in_seq. specialize (Hused i Hi). lia. }
      rewrite seq_length in L. lia.
    - assert (Hcn : (cur < n)%nat). { destruct used as [|u us]; [cbn in Hcur; now subst|]. apply Hused. subst cur. rewrite last_cons_def. apply last_in. }
      cbn [wrap_loop]. rewrite (py_get_nth pts cur d Hcn). cbn [bind]. fold n.
      destruct (wrap_round cur used mi Hn Hmi Hcn ND Hcur Hused) as (c & -> & Hc & Nc1 & Nc2 & HE). cbn [bind].
      rewrite (py_get_nth pts c d Hc). cbn [bind].
      destruct (Nat.eqb_spec c mi) as [->|Ncm].
      + exists []. split; [easy|]. rewrite app_nil_r. split; [easy|]. split; [easy|]. split; [intros ->; cbn in Hcur; congruence|].
        intros GP LM CH. cbn [app]. apply chain_snoc; [easy|]. rewrite <- Hcur. now apply HE.
      + destruct (IH c (used ++ [c]) (verts ++ [nth c pts d])) as (new & E & ND' & Hnew & _ & HC').
        { inversion ND as [|x y N1 N2]; subst. constructor; [rewrite in_app_iff; cbn; intuition|]. apply (Permutation_NoDup (Permutation_cons_append used c)). now constructor. }
        { intros i Hi. apply in_app_iff in Hi. destruct Hi as [Hi|[<-|[]]]; auto. }
        { now rewrite last_last. } { rewrite app_length; cbn. lia. }
        exists (c :: new). rewrite E. split; [now rewrite <- app_assoc|]. rewrite <- app_assoc in ND'. cbn [app] in *. split; [easy|].
        split; [intros i [<-|Hi]; auto|]. split; [discriminate|].
        intros GP LM CH. rewrite <- app_assoc in HC'. apply HC'; [easy|easy|]. apply chain_snoc; [easy|]. rewrite <- Hcur. now apply HE.
  Qed.
End Wrap.

(** ** The edge list *)
Lemma build_edges_loop (pre rest : list (vec R)) (a z : vec R) es : last rest a = z ->
  fold_left (fun acc i => es <- acc ;; v <- py_get (pre ++ a :: rest) (Z.of_nat i) ;;
               if negb (Vector2D_eq v z) then w <- py_get (pre ++ a :: rest) (Z.of_nat (S i)) ;; Ok (es ++ [Segment2D_of_points v w]) else Ok es)%py
    (seq (List.length pre) (S (List.length rest))) (Ok es) =
  Ok (es ++ map (fun e => Segment2D_of_points (fst e) (snd e)) (filter (fun e => negb (Vector2D_eq (fst e) z)) (open_pairs (a :: rest)))).
Proof.
  revert pre a es. induction rest as [|b rest IH]; intros pre a es HL.
  - cbn [seq fold_left List.length open_pairs filter map]. cbn in HL. subst z.
    rewrite (py_get_nat _ _ a) by (rewrite nth_error_app2, Nat.sub_diag by lia; reflexivity). cbn [bind].
    rewrite (proj2 (veq_iff a a)) by easy. cbn [negb]. now rewrite app_nil_r.
  - change (seq (List.length pre) (S (List.length (b :: rest)))) with (List.length pre :: seq (S (List.length pre)) (S (List.length rest))).
    cbn [fold_left]. rewrite last_cons_def in HL.
    assert (G1 : py_get (pre ++ a :: b :: rest) (Z.of_nat (List.length pre)) = Ok a) by (apply py_get_nat; rewrite nth_error_app2, Nat.sub_diag by lia; reflexivity).
    assert (G2 : py_get (pre ++ a :: b :: rest) (Z.of_nat (S (List.length pre))) = Ok b) by (apply py_get_nat; rewrite nth_error_app2 by lia; replace (S (List.length pre) - List.length pre)%nat with 1%nat by lia; reflexivity).
    rewrite G1. cbn [bind]. rewrite G2. cbn [bind].
    change (open_pairs (a :: b :: rest)) with ((a, b) :: open_pairs (b :: rest)). cbn [filter fst].
    pose proof (IH (pre ++ [a]) b) as IH'. rewrite <- app_assoc in IH'. cbn [app] in IH'. rewrite app_length in IH'. cbn [List.length] in IH'. rewrite Nat.add_1_r in IH'.
    destruct (Vector2D_eq a z); cbn [negb]; rewrite IH' by easy; [easy|]. cbn [map fst snd]. now rewrite <- app_assoc.
Qed.
Lemma build_edges_R (a : vec R) l : build_edges (a :: l) = Ok (map (fun e => Segment2D_of_points (fst e) (snd e)) (filter (fun e => negb (Vector2D_eq (fst e) (last l a))) (open_pairs (a :: l)))).
Proof.
  unfold build_edges. destruct (rev (a :: l)) as [|z r] eqn:E. { exfalso. apply (f_equal (@List.length _)) in E. rewrite rev_length in E. discriminate. }
  assert (EZ : z = last l a). { rewrite <- (last_cons_def a a). rewrite <- (rev_involutive (a :: l)), E. cbn [rev]. now rewrite last_last. }
  rewrite EZ. exact (build_edges_loop [] l a (last l a) [] eq_refl).
Qed.

(** ** C74 *)
Lemma path_pairs_open {A} (a : A) l z : open_pairs (a :: l ++ [z]) = path_pairs a l z.
Proof. revert a. induction l as [|b l IH]; intros a; [reflexivity|]. cbn [app path_pairs]. rewrite <- IH. reflexivity. Qed.
Lemma wrapping_R (pts : list (vec R)) (d : vec R) : (3 <= List.length pts)%nat ->
  exists mi new, let vs := map (fun i => nth i pts d) (mi :: new) in
    let es := map (fun e => Segment2D_of_points (fst e) (snd e)) (filter (fun e => negb (Vector2D_eq (fst e) (nth mi pts d))) (closed_edges vs)) in
    (forall h, h_input h = pts -> h_alias h = false -> compute_wrapping_method h = Ok (mkHull pts vs es false)) /\
    NoDup (mi :: new) /\ (forall i, In i (mi :: new) -> (i < List.length pts)%nat) /\ new <> [] /\ lexmin pts d mi /\
    (gp pts d -> chain (hull_edge pts d) mi (new ++ [mi])).
Proof.
  intros Hn. destruct (min_index_R pts d) as (mi & Emi & Hmi & LM); [intros ->; cbn in Hn; lia|].
  assert (LM' : lexmin pts d mi) by (intros k Hk; apply LM; now apply nth_In).
  destruct (wrap_loop_spec pts d (S (List.length pts)) mi mi [] [nth mi pts d]) as (new & E & ND & Hnew & NE & HC); try easy; try (cbn; lia).
  { repeat constructor; easy. }
  exists mi, new. cbv zeta. cbn [app] in *.
  split; [|split; [easy|split; [intros i [<-|Hi]; auto|split; [auto|split; [easy|]]]]].
  - intros h Eh Ea. unfold compute_wrapping_method, clear_results. rewrite Ea, Eh. cbn [h_input]. rewrite Emi.
    destruct (Nat.ltb_spec (List.length pts) 3); [lia|]. rewrite (py_get_nth _ _ d Hmi). cbn [bind]. rewrite E. cbn [bind].
    rewrite build_edges_R. cbn [bind]. do 2 f_equal.
    + rewrite map_app. cbn [map]. rewrite app_comm_cons. apply removelast_last.
    + rewrite map_app. cbn [map]. rewrite last_last, path_pairs_open. rewrite <- cyc_pairs_closed. reflexivity.
  - intros GP. apply HC; [easy|easy|exact I].
Qed.
(** The wrapping method never raises and always ends; the hull depends only on
    the input points, not on what was computed before, and leaves them alone;
    its vertices are input points, taken at most once each, the first one is
    the lexicographically smallest; fewer than 3 points have an empty hull. *)
Theorem C74_wrapping_R : forall (pts : list (vec R)), exists vs es,
  (forall sorter h, h_input h = pts -> h_alias h = false -> ConvexHull_compute sorter WRAPPING_METHOD h = Ok (mkHull pts vs es false)) /\
  ((List.length pts < 3)%nat -> vs = [] /\ es = []) /\
  ((3 <= List.length pts)%nat ->
     (exists v t, vs = v :: t /\ t <> [] /\ forall w, In w pts -> vx v < vx w \/ (vx v = vx w /\ vy v <= vy w)) /\
     (exists rest, Permutation pts (vs ++ rest)) /\
     (forall s, In s es -> exists a b, In (a, b) (closed_edges vs) /\ s = Segment2D_of_points a b)).
Proof.
  intros pts. destruct (Nat.lt_ge_cases (List.length pts) 3) as [Hn|Hn].
  - exists [], []. split; [|split; [easy|lia]]. intros sorter h Eh Ea. cbn [ConvexHull_compute]. unfold compute_wrapping_method, clear_results. rewrite Ea, Eh. cbn [h_input].
    destruct (get_min_point_index pts); [|easy]. destruct (Nat.ltb_spec (List.length pts) 3); [easy|lia].
  - set (d := mkVec 0 0 true). destruct (wrapping_R pts d Hn) as (mi & new & HC & ND & HI & NE & LM & _). cbv zeta in *.
    eexists _, _. split; [intros sorter h Eh Ea; exact (HC h Eh Ea)|]. split; [lia|]. intros _. split; [|split].
    + exists (nth mi pts d), (map (fun i => nth i pts d) new). split; [reflexivity|]. split; [destruct new; [easy|discriminate]|].
      intros w Hw. apply (In_nth _ _ d) in Hw. destruct Hw as (k & Hk & <-). exact (LM k Hk).
    + assert (PP : exists r, Permutation (seq 0 (List.length pts)) ((mi :: new) ++ r)).
      { generalize dependent (mi :: new). clear. intros l _ ND HI.
        assert (G : forall l s : list nat, NoDup l -> incl l s -> exists r, Permutation s (l ++ r)).
        { clear. induction l as [|a l IH]; intros s ND HI; [now exists s|]. inversion ND as [|x y N1 N2]; subst.
          assert (Ha : In a s) by (apply HI; cbn; auto). apply in_split in Ha. destruct Ha as (s1 & s2 & ->).
          destruct (IH (s1 ++ s2) N2) as [r Hr].
          { intros x Hx. specialize (HI x (or_intror Hx)). apply in_app_iff in HI. cbn in HI. apply in_app_iff. destruct HI as [?|[->|?]]; tauto. }
          exists r. cbn [app]. apply Permutation_sym, Permutation_cons_app, Permutation_sym. exact Hr. }
        apply G; [easy|]. intros i Hi. apply in_seq. specialize (HI i Hi). lia. }
      destruct PP as [r PP]. exists (map (fun i => nth i pts d) r). rewrite <- map_app.
      etransitivity; [|apply Permutation_map; exact PP].
      assert (E : map (fun i => nth i pts d) (seq 0 (List.length pts)) = pts).
      { clear. induction pts as [|a l IH]; [reflexivity|]. cbn [List.length seq map]. f_equal. rewrite <- seq_shift, map_map. exact IH. }
      now rewrite E.
    + intros s Hs. apply in_map_iff in Hs. destruct Hs as ([a b] & <- & Hs). apply filter_In in Hs. now exists a, b.
Qed.
Example C74_nonvacuous : let pts := [mkVec 0 0 true; mkVec 1 0 true; mkVec 0 1 true] in
  h_input (ConvexHull_init pts) = (pts : list (vec R)) /\ h_alias (ConvexHull_init pts) = false /\ (3 <= List.length pts)%nat.
Proof. cbn. auto. Qed.

(** ** C75 *)
Lemma gp_of_general pts d : general_position (map pt pts) -> gp pts d.
Proof.
  intros [ND G]. assert (PN : forall i, P pts d i = nth i (map pt pts) (pt d)) by (intros i; unfold P; symmetry; apply map_nth).
  assert (NE : forall i j, (i < List.length pts)%nat -> (j < List.length pts)%nat -> i <> j -> P pts d i <> P pts d j).
  { intros i j Hi Hj N E. apply N. rewrite !PN in E. apply (proj1 (NoDup_nth (map pt pts) (pt d)) ND); rewrite ?map_length; auto. }
  split; [exact NE|]. intros i j k Hi Hj Hk A B C. apply G; auto; unfold P; apply in_map; now apply nth_In.
Qed.
(** For points in general position the result is the convex hull: a strictly
    convex polygon, counterclockwise, whose vertices are input points, with all
    the other input points strictly inside. *)
Theorem C75_convex_hull_R : forall (pts : list (vec R)) sorter, (3 <= List.length pts)%nat -> general_position (map pt pts) ->
  exists vs es, ConvexHull_compute sorter WRAPPING_METHOD (ConvexHull_init pts) = Ok (mkHull pts vs es false) /\
    (3 <= List.length vs)%nat /\ incl vs pts /\ strictly_convex (map pt vs) /\
    (forall p, In p pts -> In p vs \/ strictly_inside (map pt vs) (pt p)) /\
    (forall p, In p pts -> Polygon2D_contains vs p true = Ok true) /\
    (* edges(): the sides of the hull but for the one from the first to the second vertex *)
    es = map (fun e => Segment2D_of_points (fst e) (snd e)) (tl (closed_edges vs)).
Proof.
  intros pts sorter Hn GP. set (d := mkVec 0 0 true). pose proof (gp_of_general pts d GP) as GPI.
  destruct (wrapping_R pts d Hn) as (mi & new & HC & ND & HI & NE & LM & CH). cbv zeta in *. specialize (CH GPI).
  set (vs := map (fun i => nth i pts d) (mi :: new)) in *.
  assert (EP : map pt vs = map (P pts d) (mi :: new)) by (unfold vs; rewrite map_map; reflexivity).
  assert (CE : forall i j, In (i, j) (closed_edges (mi :: new)) -> hull_edge pts d i j).
  { rewrite <- cyc_pairs_closed. cbn [cyc_pairs]. revert CH. generalize mi at 1 3. clear.
    intros a. revert a. induction new as [|b l IH]; intros a; cbn [app chain path_pairs].
    - intros [H _] i j [[= <- <-]|[]]. exact H.
    - intros [H1 H2] i j [[= <- <-]|Hij]; [easy|]. now apply (IH b). }
  assert (CEP : forall a b, In (a, b) (closed_edges (map pt vs)) -> exists i j, a = P pts d i /\ b = P pts d j /\ In (i, j) (closed_edges (mi :: new)) /\ hull_edge pts d i j).
  { intros a b. rewrite EP, closed_edges_map, in_map_iff. intros ([i j] & E & Hij). injection E as <- <-. exists i, j. auto. }
  assert (NDP : NoDup (map pt vs)).
  { rewrite EP. clear - ND HI GPI. revert ND HI. generalize (mi :: new). induction l as [|a l IH]; intros ND HI; cbn; constructor.
    - intros K. apply in_map_iff in K. destruct K as (b & E & Hb). inversion ND as [|x y N1 N2]; subst. destruct (Nat.eq_dec b a) as [->|Nba]; [easy|].
      apply (proj1 GPI b a) in E; auto; [apply HI; cbn; auto|apply HI; cbn; auto].
    - apply IH; [now inversion ND|]. intros; apply HI; cbn; auto. }
  assert (INC : incl vs pts). { intros v Hv. unfold vs in Hv. apply in_map_iff in Hv. destruct Hv as (i & <- & Hi). apply nth_In. auto. }
  assert (SI : forall p, In p pts -> In p vs \/ strictly_inside (map pt vs) (pt p)).
  { intros p Hp. apply (In_nth _ _ d) in Hp. destruct Hp as (k & Hk & <-).
    destruct (in_dec Nat.eq_dec k (mi :: new)) as [I|N]; [left; unfold vs; now apply (in_map (fun i => nth i pts d))|]. right.
    intros a b Hab. destruct (CEP a b Hab) as (i & j & -> & -> & Hij & (H1 & H2 & H3 & H4)). apply in_closed in Hij. cbn [fst snd] in Hij. apply H4; auto; intros ->; tauto. }
  assert (L3 : (3 <= List.length vs)%nat).
  { unfold vs. rewrite map_length. cbn [List.length]. destruct new as [|a [|b new]]; [easy| |cbn; lia]. exfalso.
    destruct (CE mi a) as (H1 & H2 & H3 & H4); [cbn; auto|]. destruct (CE a mi) as (Q1 & Q2 & Q3 & Q4); [cbn; auto|].
    assert (exists k, (k < List.length pts)%nat /\ k <> mi /\ k <> a) as (k & Hk & N1 & N2).
    { destruct (Nat.eq_dec mi 0), (Nat.eq_dec mi 1), (Nat.eq_dec mi 2), (Nat.eq_dec a 0), (Nat.eq_dec a 1), (Nat.eq_dec a 2); try lia; first [exists 0%nat; lia|exists 1%nat; lia|exists 2%nat; lia]. }
    specialize (H4 k Hk N1 N2). specialize (Q4 k Hk N2 N1). assert (side (P pts d a) (P pts d mi) (P pts d k) = - side (P pts d mi) (P pts d a) (P pts d k)) by (rewrite !side_level; ring). lra. }
  assert (SC : strictly_convex (map pt vs)).
  { split; [easy|]. intros a b v Hab Hv Na Nb. destruct (CEP a b Hab) as (i & j & -> & -> & Hij & (H1 & H2 & H3 & H4)).
    rewrite EP in Hv. apply in_map_iff in Hv. destruct Hv as (k & <- & Hk). apply H4; [now apply HI|intros ->; easy|intros ->; easy]. }
  exists vs. eexists. split; [exact (HC (ConvexHull_init pts) eq_refl eq_refl)|].
  split; [easy|]. split; [easy|]. split; [easy|]. split; [easy|]. split.
  - intros p Hp. destruct (SI p Hp) as [Hv|Hin]; [now apply C70_vertices_R|].
    assert (NO : ~ on_outline (map pt vs) (pt p)).
    { intros ([a b] & He & (t & _ & E)). specialize (Hin a b He). cbn [fst snd] in E. rewrite E, side_lerp in Hin. rewrite !side_level in Hin. lra. }
    pose proof (contains_parity vs p true NO ltac:(discriminate)) as EC. rewrite EC. f_equal.
    destruct (C71_convex_R vs p true _ ltac:(lia) NO EC) as [H1 _]. now apply H1.
  - f_equal. unfold vs. cbn [map]. rewrite <- cyc_pairs_closed. cbn [cyc_pairs].
    set (p0 := nth mi pts d). 
    assert (NI : forall v, In v (map (fun i => nth i pts d) new) -> Vector2D_eq v p0 = false).
    { intros v Hv. apply not_true_iff_false. rewrite veq_iff. intros E. change (map pt vs) with (pt p0 :: map pt (map (fun i => nth i pts d) new)) in NDP.
      inversion NDP as [|x y N1 N2]; subst. apply N1. rewrite <- E. now apply in_map. }
    destruct (map (fun i => nth i pts d) new) as [|v1 l] eqn:EN; [destruct new; [easy|discriminate]|].
    cbn [path_pairs filter fst]. rewrite (proj2 (veq_iff p0 p0)) by easy. cbn [negb tl].
    assert (G : forall b, (forall v, In v (b :: l) -> Vector2D_eq v p0 = false) -> filter (fun e => negb (Vector2D_eq (fst e) p0)) (path_pairs b l p0) = path_pairs b l p0).
    { clear. induction l as [|c l IH]; intros b H; cbn [path_pairs filter fst]; rewrite (H b ltac:(cbn; auto)); cbn [negb]; [easy|]. f_equal. apply IH. intros; apply H; cbn; auto. }
    now apply G.
Qed.
Example C75_nonvacuous : let pts := [mkVec 0 0 true; mkVec 4 0 true; mkVec 1 1 true; mkVec 0 4 true] in (3 <= List.length pts)%nat /\ general_position (map pt pts).
Proof.
  cbn. split; [lia|]. split.
  - unfold pt; cbn. repeat constructor; cbn; intros K; repeat (destruct K as [K|K]; [injection K; lra|]); exact K.
  - unfold pt; cbn. intros a b c [<-|[<-|[<-|[<-|[]]]]] [<-|[<-|[<-|[<-|[]]]]] [<-|[<-|[<-|[<-|[]]]]] N1 N2 N3; try (exfalso; (now apply N1) || (now apply N2) || (now apply N3)); rewrite side_level; cbn; unfold Rabs; destruct (Rcase_abs _); lra.
Qed.
