(** * P_Graham: when the Graham scan is right (C124), and its comparison objects (C125) *)
From Coq Require Import ZArith List Bool String Reals Lra Lia Psatz Permutation.
From Flocq Require Import Core.
From Verif Require Import Base Types NumR R_Tac Spec Spec2 Abs M_Angle M_Vector M_Line M_Triangle M_Segment M_Polygon M_Hull
  L_Angle P_Vector P_Polygon P_Polygon2 P_Polygon3 P_Hull P_Hull2 P_HullF P_Hull4 P_Misc.
Import ListNotations.
Local Open Scope R_scope.

(** ** Turning around a vertex *)
Local Definition X (d a : R * R) : R := fst d * snd a - snd d * fst a.
Lemma turn d a b c : X d a < 0 -> X d b < 0 -> X d c < 0 -> X a b < 0 -> X b c < 0 -> X a c < 0.
Proof.
  intros DA DB DC AB BC. assert (E : X d b * X a c = X d a * X b c + X d c * X a b) by (unfold X; ring).
  assert (0 < X d a * X b c) by nra. assert (0 < X d c * X a b) by nra.
  destruct (Rlt_le_dec (X a c) 0) as [|K]; [assumption|]. exfalso. assert (X d b * X a c <= 0) by nra. lra.
Qed.
Ltac sides := unfold side, cross, psub, px, py, X in *; cbn [fst snd] in *.
Lemma turn_a o u v w p : side o u v < 0 -> side o v w < 0 -> side o v p < 0 -> side u v w < 0 -> side v w p < 0 -> side u v p < 0.
Proof.
  intros H1 H2 H3 H4 H5. pose proof (turn (psub v o) (psub v u) (psub w v) (psub p v)) as T.
  destruct o as [ox oy], u as [ux uy], v as [a b], w as [wx wy], p as [c d]. sides.
  assert (K : (a - ux) * (d - b) - (b - uy) * (c - a) < 0) by (apply T; lra). lra.
Qed.
Lemma turn_b o u v p r : side o u v < 0 -> side o v p < 0 -> side u v p < 0 -> side o r v < 0 -> side u v r < 0 -> side v p r < 0.
Proof.
  intros H1 H2 H3 H4 H5. pose proof (turn (psub v o) (psub v r) (psub v u) (psub p v)) as T.
  destruct o as [ox oy], u as [ux uy], v as [a b], r as [wx wy], p as [c d]. sides.
  assert (K : (a - wx) * (d - b) - (b - wy) * (c - a) < 0) by (apply T; lra). lra.
Qed.
Lemma turn_c o v w p r : side o v p < 0 -> side o v w < 0 -> side o v r < 0 -> side v w p > 0 -> side v w r < 0 -> side v p r < 0.
Proof.
  intros H1 H2 H3 H4 H5. pose proof (turn (psub v o) (psub p v) (psub w v) (psub r v)) as T.
  destruct o as [ox oy], w as [ux uy], v as [a b], r as [wx wy], p as [c d]. sides.
  assert (K : (c - a) * (wy - b) - (d - b) * (wx - a) < 0) by (apply T; lra). lra.
Qed.
Lemma side_rot a b c : side a b c = side b c a. Proof. destruct a, b, c. sides. ring. Qed.
Lemma side_flip a b c : side a c b = - side a b c. Proof. destruct a, b, c. sides. ring. Qed.
Lemma pt_dec (a b : point) : {a = b} + {a <> b}.
Proof. destruct a as [a1 a2], b as [b1 b2]. destruct (Req_EM_T a1 b1) as [->|N]; [destruct (Req_EM_T a2 b2) as [->|N]; [now left|]|]; right; congruence. Qed.

(** ** The invariant of the scan *)
(** consecutive elements of the stack, the upper one second; the stack is listed from its top *)
Fixpoint links (Q : point -> point -> Prop) (st : list point) : Prop :=
  match st with v :: ((u :: _) as st') => Q u v /\ links Q st' | _ => True end.
Lemma links_app Q l l' : links Q (l ++ l') -> links Q l'.
Proof. induction l as [|a l IH]; [easy|]. intros H. apply IH. cbn [app links] in H. destruct (l ++ l'); [easy|]. tauto. Qed.
Lemma links_mid Q l v u l' : links Q (l ++ v :: u :: l') -> Q u v.
Proof. intros H. apply links_app in H. cbn in H. tauto. Qed.
Lemma links_imp (Q Q' : point -> point -> Prop) l : (forall u v, In u l -> In v l -> Q u v -> Q' u v) -> links Q l -> links Q' l.
Proof.
  induction l as [|a l IH]; [easy|]. intros H. destruct l as [|b l]; [easy|]. cbn [links]. intros [H1 H2]. split.
  - apply H; cbn; auto.
  - apply IH; [|exact H2]. intros u v Hu Hv. apply H; cbn; auto.
Qed.
Record inv (o : point) (st all : list point) : Prop := {
  i_nd : NoDup st;
  i_shape : exists top mid, st = top :: mid ++ [o];
  i_incl : incl st all;
  i_edges : links (fun u v => forall r, In r all -> r <> u -> r <> v -> side u v r < 0) st;
  i_sorted : links (fun u v => u <> o -> side o u v < 0) st;
  i_top : forall r, In r all -> r <> o -> r <> hd o st -> side o r (hd o st) < 0 }.
Definition gen (l : list point) : Prop := forall a b c, In a l -> In b l -> In c l -> a <> b -> b <> c -> a <> c -> side a b c <> 0.

Lemma last_o {A} (top : A) mid o v u pop st : top :: mid ++ [o] = pop ++ v :: u :: st -> exists l, u :: st = l ++ [o].
Proof.
  intros E. exists (removelast (u :: st)). assert (NE : u :: st <> []) by discriminate.
  rewrite (app_removelast_last o NE) at 1. f_equal. f_equal.
  assert (L : last (top :: mid ++ [o]) o = o) by (rewrite app_comm_cons; apply last_last). rewrite E in L.
  rewrite <- L at 2. clear. induction pop as [|a pop IH]; [reflexivity|]. cbn [app]. rewrite IH. destruct (pop ++ v :: u :: st) eqn:Q; [destruct pop; discriminate|reflexivity].
Qed.
Lemma down o all p st : forall v u, NoDup (v :: u :: st) -> incl (v :: u :: st) all -> (exists l, u :: st = l ++ [o]) ->
  links (fun u v => forall r, In r all -> r <> u -> r <> v -> side u v r < 0) (v :: u :: st) ->
  links (fun u v => u <> o -> side o u v < 0) (v :: u :: st) -> (forall r, In r all -> r <> o -> side o r p < 0) ->
  side u v p < 0 -> links (fun u v => side u v p < 0) (v :: u :: st).
Proof.
  induction st as [|t st IH]; intros v u ND IN EL HE HS HP H; [cbn; auto|]. cbn [links]. split; [exact H|].
  cbn [links] in HE, HS. destruct HE as (E1 & E2 & E3), HS as (S1 & S2 & S3).
  inversion ND as [|x y N1 N2]; subst. inversion N2 as [|x y N3 N4]; subst.
  assert (EL' : exists l, t :: st = l ++ [o]). { destruct EL as ([|c l] & EL); [discriminate|]. injection EL as -> EL. exists l. exact EL. }
  assert (UO : u <> o). { intros ->. apply N3. destruct EL' as (l & ->). apply in_app_iff. right. cbn. auto. }
  apply (IH u t); try assumption.
  - intros x Hx. apply IN. now right.
  - cbn [links]. auto.
  - cbn [links]. auto.
  - destruct (pt_dec t o) as [->|TO]; [apply HP; [apply IN; cbn; auto|exact UO]|].
    apply (turn_a o t u v p); [apply S2; exact TO|apply S1; exact UO|apply HP; [apply IN; cbn; auto|exact UO]| |exact H].
    apply E2; [apply IN; cbn; auto| |]; intros ->; [apply N1; cbn; auto|apply N1; cbn; auto].
Qed.
Lemma inv_step o st all p pop v u st' : inv o st all -> gen (p :: all) -> ~ In p all -> (forall r, In r all -> r <> o -> side o r p < 0) ->
  st = pop ++ v :: u :: st' -> side u v p < 0 -> (pop = [] \/ exists pop' w, pop = pop' ++ [w] /\ side v w p > 0) ->
  inv o (p :: v :: u :: st') (p :: all).
Proof.
  intros [ND (top & mid & SH) IN HE HS HT] G NP HP ES HV HPOP.
  assert (EL : exists l, u :: st' = l ++ [o]) by (apply (last_o top mid o v u pop st'); congruence).
  assert (ND' : NoDup (v :: u :: st')). { rewrite ES in ND. clear - ND. induction pop; [exact ND|]. cbn in ND. inversion ND; auto. }
  assert (IN' : incl (v :: u :: st') all). { intros x Hx. apply IN. rewrite ES. apply in_app_iff. now right. }
  assert (HE' : links (fun u v => forall r, In r all -> r <> u -> r <> v -> side u v r < 0) (v :: u :: st')) by (rewrite ES in HE; now apply links_app in HE).
  assert (HS' : links (fun u v => u <> o -> side o u v < 0) (v :: u :: st')) by (rewrite ES in HS; now apply links_app in HS).
  assert (VO : v <> o). { inversion ND' as [|x y N1 N2]; subst x y. intros ->. apply N1. destruct EL as (l & ->). apply in_app_iff. right. cbn. auto. }
  assert (OA : In o all). { apply IN'. right. destruct EL as (l & ->). apply in_app_iff. right. cbn. auto. }
  assert (VA : In v all) by (apply IN'; cbn; auto).
  assert (UA : In u all) by (apply IN'; cbn; auto).
  assert (PO : p <> o) by (intros ->; easy). assert (PV : p <> v) by (intros ->; easy).
  assert (OVP : side o v p < 0) by (apply HP; assumption).
  assert (NEW : forall r, In r all -> r <> v -> side v p r < 0).
  { intros r Hr RV. destruct (pt_dec r o) as [->|RO]; [rewrite <- side_rot; exact OVP|].
    assert (TRI : side o r v <> 0). { apply G; cbn; auto. }
    assert (AS : side o v r = - side o r v) by apply side_flip.
    destruct (Rlt_le_dec (side o r v) 0) as [B|B].
    - cbn [links] in HE', HS'. destruct HE' as [E1 _], HS' as [S1 _]. destruct (pt_dec u o) as [->|UO].
      + exfalso. specialize (E1 r Hr RO RV). lra.
      + destruct (pt_dec r u) as [->|RU]; [rewrite <- side_rot; exact HV|].
        apply (turn_b o u v p r); auto.
    - assert (AF : side o v r < 0) by lra. destruct HPOP as [->|(pop' & w & -> & HW)].
      + exfalso. cbn [app] in ES. rewrite ES in HT. cbn [hd] in HT. specialize (HT r Hr RO RV). lra.
      + rewrite <- app_assoc in ES. cbn [app] in ES. rewrite ES in HE, HS. apply links_mid in HE. apply links_mid in HS.
        destruct (pt_dec r w) as [->|RW]; [rewrite side_flip; lra|].
        apply (turn_c o v w p r); auto. }
  constructor.
  - constructor; [|exact ND']. intros Hp. apply NP. now apply IN'.
  - destruct EL as (l & EL). exists p, (v :: l). cbn [app]. now rewrite EL.
  - intros x [<-|Hx]; [now left|right; now apply IN'].
  - cbn [links]. split.
    + intros r [<-|Hr] N1 N2; [easy|]. now apply NEW.
    + change (links (fun u v => forall r, In r (p :: all) -> r <> u -> r <> v -> side u v r < 0) (v :: u :: st')).
      apply (links_imp (fun u v => (forall r, In r all -> r <> u -> r <> v -> side u v r < 0) /\ side u v p < 0)).
      { intros a b Ha Hb [H1 H2] r [<-|Hr] N1 N2; [exact H2|now apply H1]. }
      pose proof (down o all p st' v u ND' IN' EL HE' HS' HP HV) as DN. clear - HE' DN. revert HE' DN. generalize (v :: u :: st'). intros l.
      induction l as [|a l IH]; [easy|]. destruct l as [|b l]; [easy|]. cbn [links] in *. intros [A1 A2] [B1 B2]. split; [split; assumption|exact (IH A2 B2)].
  - cbn [links]. split; [intros _; exact OVP|]. exact HS'.
  - cbn [hd]. intros r [<-|Hr] N1 N2; [easy|]. now apply HP.
Qed.

Lemma inv_perm o st all all' : Permutation all all' -> inv o st all -> inv o st all'.
Proof.
  intros P [ND SH IN HE HS HT]. constructor; [exact ND|exact SH| | |exact HS|].
  - intros x Hx. apply (Permutation_in _ P). now apply IN.
  - refine (links_imp _ _ _ _ HE). intros u v _ _ H r Hr. apply H. now apply (Permutation_in _ (Permutation_sym P)).
  - intros r Hr. apply HT. now apply (Permutation_in _ (Permutation_sym P)).
Qed.

(** ** The scan *)
Lemma clockwise_R (a b c : vec R) : Rabs (side (pt a) (pt b) (pt c)) >= 1/1000000 -> hull_is_clockwise a b c = Ok (Rlt_bool (side (pt a) (pt b) (pt c)) 0).
Proof.
  intros M. unfold hull_is_clockwise. rewrite area_side. rnum. destruct (Rlt_bool_spec (side (pt a) (pt b) (pt c)) 0) as [K|K]; [reflexivity|].
  rewrite Rabs_pos_eq in M by assumption. unfold EPSILON. rnum. now rewrite Rlt_bool_false by lra.
Qed.
Lemma get_top {A} (st : list A) v l : py_get (rev (v :: st) ++ l) (Z.of_nat (List.length st)) = Ok v.
Proof.
  apply py_get_nat. cbn [rev]. rewrite nth_error_app1 by (rewrite app_length, rev_length; cbn; lia).
  rewrite nth_error_app2, rev_length, Nat.sub_diag by (rewrite rev_length; lia). reflexivity.
Qed.
Lemma get_under {A} (st : list A) u v l : py_get (rev (v :: u :: st) ++ l) (Z.of_nat (List.length (u :: st)) - 1) = Ok u.
Proof.
  replace (Z.of_nat (List.length (u :: st)) - 1)%Z with (Z.of_nat (List.length st)) by (cbn [List.length]; lia).
  change (rev (v :: u :: st)) with (rev (u :: st) ++ [v]). rewrite <- app_assoc. apply get_top.
Qed.
Definition margin (l : list point) : Prop := forall a b c, In a l -> In b l -> In c l -> a <> b -> b <> c -> a <> c -> Rabs (side a b c) >= 1/1000000.
Lemma margin_gen l : margin l -> gen l.
Proof. intros M a b c A B C N1 N2 N3 E. specialize (M a b c A B C N1 N2 N3). rewrite E, Rabs_R0 in M. lra. Qed.
Lemma margin_incl l l' : incl l l' -> margin l' -> margin l.
Proof. intros I M a b c A B C. apply M; now apply I. Qed.
Lemma pop_R o (p : vec R) : forall (st : list (vec R)) v fuel l top,
  (exists s t, v :: st = s ++ [t; o]) -> (List.length st < fuel)%nat -> top = Z.of_nat (List.length st) ->
  NoDup (map pt (p :: v :: st)) -> margin (map pt (p :: v :: st)) -> (forall r, In r (v :: st) -> pt r <> pt o -> side (pt o) (pt r) (pt p) < 0) ->
  exists pop v' u' st', v :: st = pop ++ v' :: u' :: st' /\ graham_pop fuel (rev (v :: st) ++ l) p top = Ok (Z.of_nat (List.length (u' :: st'))) /\
    side (pt u') (pt v') (pt p) < 0 /\ (pop = [] \/ exists pop' w, pop = pop' ++ [w] /\ side (pt v') (pt w) (pt p) > 0).
Proof.
  induction st as [|u st IH]; intros v fuel l top (s & t & ES) HF -> ND M HP.
  { exfalso. apply (f_equal (@List.length (vec R))) in ES. rewrite app_length in ES. cbn in ES. lia. }
  destruct fuel as [|fuel]; [cbn in HF; lia|]. cbn [graham_pop]. rewrite get_under, get_top. cbn [bind].
  cbn [map] in ND, M. inversion ND as [|x y NP ND1]; subst. inversion ND1 as [|x y NV ND2]; subst. inversion ND2 as [|x y NU ND3]; subst.
  rewrite clockwise_R by (apply M; cbn; try tauto; intros E; [apply NV; left; exact E|apply NP; left; exact E|apply NP; right; left; exact E]).
  cbn [bind]. destruct (Rlt_bool_spec (side (pt u) (pt v) (pt p)) 0) as [K|K].
  - exists [], v, u, st. repeat split; auto.
  - assert (KP : side (pt u) (pt v) (pt p) > 0).
    { assert (side (pt u) (pt v) (pt p) <> 0); [|lra]. apply (margin_gen _ M); cbn; try tauto; intros E; [apply NV; left; exact E|apply NP; left; exact E|apply NP; right; left; exact E]. }
    destruct st as [|t' st].
    { exfalso. destruct s as [|? s]; [|apply (f_equal (@List.length (vec R))) in ES; cbn in ES; rewrite app_length in ES; cbn in ES; lia]. injection ES as <- <-.
      assert (side (pt u) (pt v) (pt p) < 0); [|lra]. apply HP; [cbn; auto|]. intros E. apply NV. left. now rewrite E. }
    replace (Z.of_nat (List.length (u :: t' :: st)) - 1)%Z with (Z.of_nat (List.length (t' :: st))) by (cbn [List.length]; lia).
    change (rev (v :: u :: t' :: st)) with (rev (u :: t' :: st) ++ [v]). rewrite <- app_assoc.
    destruct (IH u fuel ([v] ++ l) (Z.of_nat (List.length (t' :: st)))) as (pop & v' & u' & st' & E1 & E2 & E3 & E4).
    + destruct s as [|s0 s]; [discriminate|]. injection ES as <- ES. exists s, t. exact ES.
    + cbn [List.length] in *. lia.
    + reflexivity.
    + cbn [map]. constructor; [intros Hx; apply NP; right; exact Hx|exact ND2].
    + refine (margin_incl _ _ _ M). intros x [<-|Hx]; [now left|right; right; exact Hx].
    + intros r Hr. apply HP. now right.
    + exists (v :: pop), v', u', st'. split; [cbn [app]; now rewrite <- E1|]. split; [exact E2|]. split; [exact E3|]. right.
      destruct E4 as [->|(pop' & w & -> & E4)].
      * exists [], v. split; [reflexivity|]. cbn [app] in E1. injection E1 as <- <- <-. exact KP.
      * exists (v :: pop'), w. split; [reflexivity|exact E4].
Qed.
Lemma set_mid {A} (l1 : list A) a l2 b : py_set (l1 ++ a :: l2) (Z.of_nat (List.length l1)) b = Ok (l1 ++ b :: l2).
Proof.
  unfold py_set, py_index. rewrite app_length. cbn [List.length].
  rewrite (proj2 (Z.ltb_ge _ _)) by lia. rewrite (proj2 (Z.leb_le _ _)), (proj2 (Z.ltb_lt _ _)) by lia. cbn [andb]. rewrite Nat2Z.id. f_equal.
  induction l1 as [|c l1 IH]; [reflexivity|]. cbn [app List.length list_set]. now rewrite IH.
Qed.
Lemma get_mid {A} (l1 : list A) a l2 : py_get (l1 ++ a :: l2) (Z.of_nat (List.length l1)) = Ok a.
Proof. apply py_get_nat. now rewrite nth_error_app2, Nat.sub_diag by lia. Qed.
Lemma set_same {A} (l : list A) i a : py_get l i = Ok a -> py_set l i a = Ok l.
Proof.
  unfold py_get, py_set. destruct (py_index l i) as [j|]; [|discriminate]. destruct (nth_error l j) as [b|] eqn:E; [|discriminate]. intros [= ->]. f_equal.
  revert j E. induction l as [|c l IH]; intros [|j]; cbn; try easy; [now intros [= ->]|]. intros E. now rewrite IH.
Qed.
Lemma last_two {A} (pop : list A) v u st s t o : pop ++ v :: u :: st = s ++ [t; o] -> exists s' t', v :: u :: st = s' ++ [t'; o].
Proof.
  revert s. induction pop as [|a pop IH]; intros s E; [now exists s, t|]. destruct s as [|b s].
  - exfalso. apply (f_equal (@List.length A)) in E. cbn in E. rewrite app_length in E. cbn in E. lia.
  - injection E as -> E. now apply (IH s).
Qed.
Lemma scan_R o : forall (rest st J : list (vec R)) i top, i = List.length (st ++ J) -> top = (Z.of_nat (List.length st) - 1)%Z ->
  inv (pt o) (map pt st) (map pt (st ++ J)) -> (exists s t, st = s ++ [t; o]) ->
  NoDup (map pt (st ++ J ++ rest)) -> margin (map pt (st ++ J ++ rest)) ->
  ForallOrdPairs (fun a b => side (pt o) (pt a) (pt b) < 0) rest -> (forall r p, In r (st ++ J) -> In p rest -> pt r <> pt o -> side (pt o) (pt r) (pt p) < 0) ->
  exists st' J', graham_loop (seq i (List.length rest)) (rev st ++ J ++ rest) top = Ok (rev st' ++ J', (Z.of_nat (List.length st') - 1)%Z) /\
    inv (pt o) (map pt st') (map pt (st' ++ J')) /\ Permutation (st' ++ J') (st ++ J ++ rest) /\ (exists s t, st' = s ++ [t; o]).
Proof.
  induction rest as [|p rest IH]; intros st J i top -> -> IV SH ND M FO HP.
  - cbn [seq List.length graham_loop]. exists st, J. rewrite app_nil_r. auto.
  - cbn [seq List.length graham_loop].
    assert (EG : py_get (rev st ++ J ++ p :: rest) (Z.of_nat (List.length (st ++ J))) = Ok p).
    { rewrite app_assoc. replace (List.length (st ++ J)) with (List.length (rev st ++ J)) by (rewrite !app_length, rev_length; lia). apply get_mid. }
    rewrite EG. cbn [bind]. destruct st as [|v st]; [destruct SH as (s & t & SH); destruct s; discriminate|].
    assert (PN : ~ In (pt p) (map pt ((v :: st) ++ J))).
    { intros Hp. rewrite app_assoc, map_app in ND. cbn [map] in ND. apply NoDup_remove_2 in ND. apply ND. apply in_app_iff. now left. }
    assert (NDs : NoDup (map pt (p :: v :: st))).
    { cbn [map]. constructor; [intros Hp; apply PN; rewrite map_app; apply in_app_iff; now left|apply IV]. }
    assert (MP : margin (map pt (p :: (v :: st) ++ J))).
    { refine (margin_incl _ _ _ M). intros x Hx. rewrite app_assoc, map_app. cbn [map] in *. apply in_app_iff. destruct Hx as [<-|Hx]; [right; now left|now left]. }
    assert (MS : margin (map pt (p :: v :: st))).
    { refine (margin_incl _ _ _ MP). intros x Hx. cbn [map] in *. rewrite map_app, app_comm_cons. apply in_app_iff. now left. }
    destruct (pop_R o p st v (2 * List.length (rev (v :: st) ++ J ++ p :: rest) + 3) (J ++ p :: rest) (Z.of_nat (List.length (v :: st)) - 1)) as (pop & v' & u' & st' & E1 & E2 & E3 & E4);
      try assumption.
    { rewrite app_length, rev_length. cbn [List.length]. lia. }
    { cbn [List.length]. lia. }
    { intros r Hr Nr. apply (HP r p); [apply in_app_iff; now left|now left|exact Nr]. }
    rewrite E2. cbn [bind].
    set (S1 := v' :: u' :: st') in *. replace (Z.of_nat (List.length (u' :: st')) + 1)%Z with (Z.of_nat (List.length S1)) by (unfold S1; cbn [List.length]; lia).
    assert (EL : rev (v :: st) ++ J ++ p :: rest = rev S1 ++ (rev pop ++ J) ++ p :: rest) by (rewrite E1, rev_app_distr, <- !app_assoc; reflexivity).
    assert (LI : List.length ((v :: st) ++ J) = List.length (rev S1 ++ (rev pop ++ J))) by (rewrite E1, !app_length, !rev_length; lia).
    rewrite EL. rewrite LI in EG |- *.
    assert (SW : exists K, Permutation K (rev pop ++ J) /\
      (tmp <- py_get (rev S1 ++ (rev pop ++ J) ++ p :: rest) (Z.of_nat (List.length S1)) ;;
       vi <- Ok p ;;
       l1 <- py_set (rev S1 ++ (rev pop ++ J) ++ p :: rest) (Z.of_nat (List.length S1)) vi ;;
       l2 <- py_set l1 (Z.of_nat (List.length (rev S1 ++ rev pop ++ J))) tmp ;;
       graham_loop (seq (S (List.length (rev S1 ++ rev pop ++ J))) (List.length rest)) l2 (Z.of_nat (List.length S1)))%py =
      graham_loop (seq (S (List.length (rev S1 ++ rev pop ++ J))) (List.length rest)) (rev (p :: S1) ++ K ++ rest) (Z.of_nat (List.length S1))).
    { destruct (rev pop ++ J) as [|j0 J0] eqn:EJ.
      - exists []. split; [reflexivity|]. cbn [app]. rewrite app_nil_r.
        rewrite <- (rev_length S1). rewrite get_mid. cbn [bind]. rewrite set_mid. cbn [bind]. rewrite set_mid. cbn [bind]. rewrite rev_length.
        cbn [rev]. now rewrite <- app_assoc.
      - exists (J0 ++ [j0]). split; [rewrite Permutation_app_comm; reflexivity|]. cbn [app].
        rewrite <- (rev_length S1). rewrite get_mid. cbn [bind]. rewrite set_mid. cbn [bind].
        replace (rev S1 ++ p :: J0 ++ p :: rest) with ((rev S1 ++ p :: J0) ++ p :: rest) by (rewrite <- app_assoc; reflexivity).
        replace (List.length (rev S1 ++ j0 :: J0)) with (List.length (rev S1 ++ p :: J0)) by (rewrite !app_length; reflexivity).
        rewrite set_mid. cbn [bind]. rewrite rev_length. f_equal. cbn [rev]. rewrite <- !app_assoc. reflexivity. }
    destruct SW as (K & PK & SW). cbn [bind] in SW.
    assert (PA : Permutation ((p :: S1) ++ K) (p :: (v :: st) ++ J)).
    { change (Permutation (p :: (S1 ++ K)) (p :: ((v :: st) ++ J))). apply perm_skip. rewrite E1, <- app_assoc. rewrite PK. rewrite (Permutation_app_comm pop). rewrite <- app_assoc. apply Permutation_app_head.
      rewrite <- Permutation_rev. apply Permutation_app_comm. }
    assert (PB : Permutation ((p :: S1) ++ K ++ rest) ((v :: st) ++ J ++ p :: rest)).
    { rewrite !app_assoc. rewrite PA. rewrite <- Permutation_middle. reflexivity. }
    match goal with |- exists _ _, ?G = _ /\ _ => match type of SW with ?A = _ => change G with A end end. rewrite SW.
    destruct (IH (p :: S1) K (S (List.length (rev S1 ++ rev pop ++ J))) (Z.of_nat (List.length S1))) as (st1 & J1 & R1 & R2 & R3 & R4).
    + rewrite (Permutation_length PA). rewrite <- LI. reflexivity.
    + cbn [List.length]. lia.
    + apply (inv_perm _ _ (map pt (p :: (v :: st) ++ J))); [apply Permutation_map; symmetry; exact PA|].
      cbn [map]. apply (inv_step (pt o) (map pt (v :: st)) _ (pt p) (map pt pop) (pt v') (pt u') (map pt st') IV).
      * apply margin_gen. exact MP.
      * exact PN.
      * intros r Hr Nr. apply in_map_iff in Hr. destruct Hr as (r' & <- & Hr). apply (HP r' p Hr); [now left|exact Nr].
      * rewrite E1, map_app. reflexivity.
      * exact E3.
      * destruct E4 as [->|(pop' & w & -> & E4)]; [now left|right]. exists (map pt pop'), (pt w). split; [apply map_app|exact E4].
    + destruct SH as (s & t & SH). rewrite E1 in SH. destruct (last_two _ _ _ _ _ _ _ SH) as (s' & t' & E). exists (p :: s'), t'. cbn [app]. f_equal. exact E.
    + apply (Permutation_NoDup (l := map pt ((v :: st) ++ J ++ p :: rest))); [|exact ND]. apply Permutation_map. symmetry. exact PB.
    + refine (margin_incl _ _ _ M). intros x Hx. refine (Permutation_in _ _ Hx). apply Permutation_map. exact PB.
    + now inversion FO.
    + intros r q Hr Hq. apply (Permutation_in _ PA) in Hr. destruct Hr as [<-|Hr].
      * intros _. inversion FO as [|x y F1 F2]; subst. rewrite Forall_forall in F1. now apply F1.
      * apply HP; [exact Hr|now right].
    + exists st1, J1. split; [exact R1|]. split; [exact R2|]. split; [|exact R4]. rewrite R3. exact PB.
Qed.

(** ** Sorting *)
(** [sorter] sorts: on a list without repetitions on which the comparison never
    raises and is a strict total order it returns the same elements in order. *)
Definition sorts {T} (lt : vec T -> vec T -> res bool) (sorter : list (vec T) -> res (list (vec T))) : Prop :=
  forall l, NoDup l ->
    (forall a b, In a l -> In b l -> a <> b -> (lt a b = Ok true /\ lt b a = Ok false) \/ (lt a b = Ok false /\ lt b a = Ok true)) ->
    (forall a b c, In a l -> In b l -> In c l -> lt a b = Ok true -> lt b c = Ok true -> lt a c = Ok true) ->
    exists l', sorter l = Ok l' /\ Permutation l l' /\ ForallOrdPairs (fun a b => lt a b = Ok true) l'.
Section Sort.
  Context {T : Type} `{Num T} (lt : vec T -> vec T -> res bool) (l0 : list (vec T)).
  Let LT a b := In a l0 /\ In b l0 /\ a <> b /\ lt a b = Ok true.
  Hypothesis TOT : forall a b, In a l0 -> In b l0 -> a <> b -> (lt a b = Ok true /\ lt b a = Ok false) \/ (lt a b = Ok false /\ lt b a = Ok true).
  Hypothesis TR : forall a b c, In a l0 -> In b l0 -> In c l0 -> lt a b = Ok true -> lt b c = Ok true -> lt a c = Ok true.
  Lemma LT_trans a b c : LT a b -> LT b c -> LT a c.
  Proof.
    intros (A1 & A2 & A3 & A4) (B1 & B2 & B3 & B4). repeat split; try assumption; [|now apply (TR a b c)].
    intros ->. destruct (TOT b c A2 A1 B3) as [[E1 E2]|[E1 E2]]; congruence.
  Qed.
  Lemma pos_ok s x : ForallOrdPairs LT s -> In x l0 -> incl s l0 -> ~ In x s ->
    forall fuel lo hi, (hi - lo < fuel)%nat -> (lo <= hi <= List.length s)%nat ->
    (forall i y, (i < lo)%nat -> nth_error s i = Some y -> LT y x) -> (forall i y, (hi <= i)%nat -> nth_error s i = Some y -> LT x y) ->
    exists pos, bin_insert_pos lt fuel s x lo hi = Ok pos /\ (pos <= List.length s)%nat /\
      (forall i y, (i < pos)%nat -> nth_error s i = Some y -> LT y x) /\ (forall i y, (pos <= i)%nat -> nth_error s i = Some y -> LT x y).
  Proof.
    intros FO IX IS NX. 
    assert (ORD : forall i j a b, (i < j)%nat -> nth_error s i = Some a -> nth_error s j = Some b -> LT a b).
    { clear - FO. induction FO as [|c s F1 F2 IH]; intros i j a b Hij Ha Hb; [destruct i; discriminate|].
      destruct j as [|j]; [lia|]. destruct i as [|i].
      - injection Ha as <-. rewrite Forall_forall in F1. apply F1. now apply nth_error_In with j.
      - apply (IH i j); [lia|exact Ha|exact Hb]. }
    induction fuel as [|fuel IH]; intros lo hi HF HB HLO HHI; [lia|]. cbn [bin_insert_pos].
    destruct (Nat.ltb_spec lo hi) as [Hlt|Hge]; [|exists lo; split; [reflexivity|]; split; [lia|]; split; [exact HLO|]; intros i y Hi; apply HHI; lia].
    cbv zeta. set (mid := ((lo + hi) / 2)%nat).
    assert (HM : (lo <= mid < hi)%nat) by (subst mid; split; [apply Nat.div_le_lower_bound; lia|apply Nat.div_lt_upper_bound; lia]).
    destruct (nth_error s mid) as [y|] eqn:EY; [|apply nth_error_None in EY; lia].
    assert (IY : In y s) by (now apply nth_error_In with mid).
    assert (XY : x <> y) by (intros ->; easy).
    destruct (TOT x y IX (IS y IY) XY) as [[E1 E2]|[E1 E2]]; rewrite E1; cbn [bind].
    - apply IH; [lia|lia|exact HLO|]. assert (LXY : LT x y) by (repeat split; auto).
      intros i z Hi Hz. destruct (Nat.eq_dec i mid) as [->|N]; [congruence|]. apply (LT_trans x y z LXY). apply (ORD mid i); [lia|exact EY|exact Hz].
    - apply IH; [lia|lia| |exact HHI]. assert (LYX : LT y x) by (repeat split; auto).
      intros i z Hi Hz. destruct (Nat.eq_dec i mid) as [->|N]; [congruence|]. apply (fun h => LT_trans z y x h LYX). apply (ORD i mid); [lia|exact Hz|exact EY].
  Qed.
  Lemma fop_app (P : vec T -> vec T -> Prop) l1 l2 : ForallOrdPairs P l1 -> ForallOrdPairs P l2 -> (forall a b, In a l1 -> In b l2 -> P a b) -> ForallOrdPairs P (l1 ++ l2).
  Proof.
    intros F1 F2 HH. induction F1 as [|a l1 A F1 IH]; [exact F2|]. cbn [app]. constructor.
    - rewrite Forall_forall in *. intros b Hb. apply in_app_iff in Hb as [Hb|Hb]; [now apply A|]. apply HH; [now left|exact Hb].
    - apply IH. intros; apply HH; [now right|assumption].
  Qed.
  Lemma fop_app_inv (P : vec T -> vec T -> Prop) l1 l2 : ForallOrdPairs P (l1 ++ l2) -> ForallOrdPairs P l1 /\ ForallOrdPairs P l2.
  Proof.
    induction l1 as [|a l1 IH]; cbn [app]; intros F; [split; [constructor|exact F]|]. inversion F as [|x y A B]; subst. destruct (IH B). split; [|assumption].
    constructor; [|assumption]. rewrite Forall_forall in *. intros b Hb. apply A. apply in_app_iff. now left.
  Qed.
  Lemma fop_rev (P : vec T -> vec T -> Prop) l : ForallOrdPairs (fun a b => P b a) l -> ForallOrdPairs P (rev l).
  Proof.
    induction 1 as [|a l A F IH]; [constructor|]. cbn [rev]. apply fop_app; [exact IH|repeat constructor|].
    intros x y Hx [<-|[]]. rewrite Forall_forall in A. apply A. now apply in_rev.
  Qed.
  Lemma bin_sort_ok rest : forall s, ForallOrdPairs LT s -> NoDup (s ++ rest) -> incl (s ++ rest) l0 ->
    exists l', bin_sort lt s rest = Ok l' /\ Permutation (s ++ rest) l' /\ ForallOrdPairs LT l'.
  Proof.
    induction rest as [|x rest IH]; intros s FO ND IN.
    - exists s. rewrite app_nil_r. repeat split; auto.
    - cbn [bin_sort].
      assert (NX : ~ In x s). { apply NoDup_remove_2 in ND. intros Hx. apply ND. apply in_app_iff. now left. }
      destruct (pos_ok s x FO) with (fuel := S (List.length s)) (lo := 0%nat) (hi := List.length s) as (pos & E1 & E2 & E3 & E4); try lia; try assumption.
      { apply IN. apply in_app_iff. right. now left. }
      { intros y Hy. apply IN. apply in_app_iff. now left. }
      { intros i y Hi Hy. assert (i < List.length s)%nat by (apply nth_error_Some; congruence). lia. }
      rewrite E1. cbn [bind].
      assert (PM : Permutation (firstn pos s ++ x :: skipn pos s) (x :: s)) by (rewrite <- Permutation_middle; now rewrite firstn_skipn).
      assert (PN : Permutation ((firstn pos s ++ x :: skipn pos s) ++ rest) (s ++ x :: rest)) by (rewrite PM; cbn [app]; apply Permutation_middle).
      destruct (IH (firstn pos s ++ x :: skipn pos s)) as (l' & R1 & R2 & R3).
      + rewrite <- (firstn_skipn pos s) in FO. destruct (fop_app_inv _ _ _ FO) as [FA FB].
        assert (FS : forall y, In y (skipn pos s) -> LT x y).
        { intros y Hy. apply In_nth_error in Hy. destruct Hy as (i & Hi). apply (E4 (pos + i)%nat); [lia|]. rewrite <- Hi.
          rewrite <- (firstn_skipn pos s) at 1. rewrite nth_error_app2; rewrite firstn_length_le by lia; [f_equal; lia|lia]. }
        assert (FF : forall y, In y (firstn pos s) -> LT y x).
        { intros y Hy. apply In_nth_error in Hy. destruct Hy as (i & Hi). assert (HH : (i < pos)%nat).
          { assert (i < List.length (firstn pos s))%nat by (apply nth_error_Some; congruence). rewrite firstn_length_le in * by lia. lia. }
          apply (E3 i); [exact HH|]. rewrite <- (firstn_skipn pos s). rewrite nth_error_app1; [exact Hi|]. rewrite firstn_length_le; lia. }
        apply fop_app; [exact FA| |].
        * constructor; [apply Forall_forall; exact FS|exact FB].
        * intros a b Ha [<-|Hb]; [now apply FF|]. apply (LT_trans a x b); auto.
      + apply (Permutation_NoDup (Permutation_sym PN)). exact ND.
      + intros y Hy. apply IN. now apply (Permutation_in _ PN).
      + exists l'. split; [exact R1|]. split; [|exact R3]. rewrite <- R2. now symmetry.
  Qed.
  Lemma run_ok (desc : bool) l : forall prev, NoDup (prev :: l) -> incl (prev :: l) l0 ->
    exists run rest, run_from lt desc prev l = Ok (run, rest) /\ l = run ++ rest /\
      ForallOrdPairs (fun a b => if desc then LT b a else LT a b) (prev :: run).
  Proof.
    induction l as [|x l IH]; intros prev ND IN; cbn [run_from].
    - exists [], []. repeat split; auto. repeat constructor.
    - inversion ND as [|c d N1 N2]; subst. assert (IP : In prev l0) by (apply IN; now left). assert (IX : In x l0) by (apply IN; right; now left).
      assert (NE : prev <> x) by (intros ->; apply N1; now left).
      destruct (IH x N2) as (run & rest & E1 & E2 & E3); [intros y Hy; apply IN; now right|].
      destruct (TOT prev x IP IX NE) as [[Q1 Q2]|[Q1 Q2]]; rewrite Q2; cbn [bind]; destruct desc; cbn [Bool.eqb].
      + exists [], (x :: l). repeat split; auto. repeat constructor.
      + rewrite E1. cbn [bind]. exists (x :: run), rest. split; [reflexivity|]. split; [cbn [app]; now f_equal|].
        constructor; [|exact E3]. inversion E3 as [|c d F1 F2]; subst. assert (L1 : LT prev x) by (repeat split; auto).
        constructor; [exact L1|]. rewrite Forall_forall in *. intros y Hy. apply (LT_trans prev x y L1). now apply F1.
      + rewrite E1. cbn [bind]. exists (x :: run), rest. split; [reflexivity|]. split; [cbn [app]; now f_equal|].
        constructor; [|exact E3]. inversion E3 as [|c d F1 F2]; subst. assert (L1 : LT x prev) by (repeat split; auto).
        constructor; [exact L1|]. rewrite Forall_forall in *. intros y Hy. apply (fun h => LT_trans y x prev h L1). now apply F1.
      + exists [], (x :: l). repeat split; auto. repeat constructor.
  Qed.
End Sort.
Lemma fop_imp {A} (P Q : A -> A -> Prop) l : (forall a b, P a b -> Q a b) -> ForallOrdPairs P l -> ForallOrdPairs Q l.
Proof. intros HH. induction 1 as [|a l F1 F2 IH]; constructor; [|exact IH]. revert F1. apply Forall_impl. intros b. apply HH. Qed.
(** CPython's sort of a short list sorts. *)
Theorem C124_python_sort {T} `{Num T} (lt : vec T -> vec T -> res bool) : sorts lt (py_sort_small lt).
Proof.
  intros l ND TOT TR. unfold py_sort_small. destruct l as [|x [|y l]].
  - exists []. repeat constructor.
  - exists [x]. repeat split; auto. repeat constructor.
  - assert (NE : x <> y) by (inversion ND as [|c d N1 N2]; subst; intros ->; apply N1; now left).
    inversion ND as [|c d N1 N2]; subst.
    set (l0 := x :: y :: l) in *.
    assert (K : forall b : bool, lt y x = Ok b -> exists run rest, run_from lt b y l = Ok (run, rest) /\ l = run ++ rest /\
      ForallOrdPairs (fun a c => if b then In c l0 /\ In a l0 /\ c <> a /\ lt c a = Ok true else In a l0 /\ In c l0 /\ a <> c /\ lt a c = Ok true) (x :: y :: run)).
    { intros b EB. destruct (run_ok lt l0 TOT TR b l y N2) as (run & rest & E1 & E2 & E3); [intros z Hz; now right|].
      exists run, rest. split; [exact E1|]. split; [exact E2|]. constructor; [|exact E3].
      inversion E3 as [|c d F1 F2]; subst c d. rewrite Forall_forall in F1.
      destruct b.
      - assert (L1 : In y l0 /\ In x l0 /\ y <> x /\ lt y x = Ok true) by (repeat split; cbn; auto).
        constructor; [exact L1|]. apply Forall_forall. intros z Hz. exact (LT_trans lt l0 TOT TR z y x (F1 z Hz) L1).
      - assert (L1 : In x l0 /\ In y l0 /\ x <> y /\ lt x y = Ok true).
        { repeat split; cbn; auto. destruct (TOT x y) as [[Q1 Q2]|[Q1 Q2]]; cbn; auto; congruence. }
        constructor; [exact L1|]. apply Forall_forall. intros z Hz. exact (LT_trans lt l0 TOT TR x y z L1 (F1 z Hz)). }
    assert (EB : exists b, lt y x = Ok b) by (destruct (TOT x y) as [[Q1 Q2]|[Q1 Q2]]; cbn; eauto).
    destruct EB as (b & EB). destruct (K b EB) as (run & rest & E1 & E2 & E3). rewrite EB. cbn [bind]. rewrite E1. cbn [bind].
    set (s := if b then rev (x :: y :: run) else x :: y :: run).
    assert (PS : Permutation (s ++ rest) l0).
    { unfold l0. rewrite E2. change (x :: y :: run ++ rest) with ((x :: y :: run) ++ rest). apply Permutation_app_tail. unfold s. destruct b; [symmetry; apply Permutation_rev|reflexivity]. }
    destruct (bin_sort_ok lt l0 TOT TR rest s) as (l' & R1 & R2 & R3).
    + unfold s. destruct b; [|exact E3]. apply (fop_rev (fun a c => In a l0 /\ In c l0 /\ a <> c /\ lt a c = Ok true)). exact E3.
    + apply (Permutation_NoDup (Permutation_sym PS)). exact ND.
    + intros z Hz. now apply (Permutation_in _ PS).
    + exists l'. split; [exact R1|]. split; [rewrite <- PS; exact R2|]. revert R3. apply fop_imp. tauto.
Qed.
Example C124_python_sort_nonvacuous : let lt (a b : vec Z) := Ok (Z.ltb (vx a) (vx b)) in let l := [V 3 0; V 1 0; V 2 0]%Z in
  NoDup l /\ (forall a b, In a l -> In b l -> a <> b -> (lt a b = Ok true /\ lt b a = Ok false) \/ (lt a b = Ok false /\ lt b a = Ok true)) /\
  (forall a b c, In a l -> In b l -> In c l -> lt a b = Ok true -> lt b c = Ok true -> lt a c = Ok true) /\ py_sort_small lt l = Ok [V 1 0; V 2 0; V 3 0]%Z.
Proof.
  cbv zeta. split; [repeat constructor; cbn; intuition discriminate|]. split; [|split; [|reflexivity]].
  - intros a b [<-|[<-|[<-|[]]]] [<-|[<-|[<-|[]]]] N; cbn; auto; congruence.
  - intros a b c [<-|[<-|[<-|[]]]] [<-|[<-|[<-|[]]]] [<-|[<-|[<-|[]]]]; cbn; congruence.
Qed.

(** ** The comparison around the origin *)
Notation OO := (0, 0) (only parsing).
Lemma side_O a b : side (0, 0) a b = fst a * snd b - snd a * fst b.
Proof. destruct a, b. unfold side, cross, psub, px, py. cbn. ring. Qed.
Lemma lt_R (a b : vec R) : Rabs (side (0, 0) (pt a) (pt b)) >= 1/1000000 -> angle_lt a b = Ok (Rlt_bool (side (0, 0) (pt a) (pt b)) 0).
Proof.
  intros M. unfold angle_lt, angle_sort_predicate. rewrite area_side. change (pt (V (num 0) (num 0))) with ((0, 0) : point). rnum.
  destruct (Rlt_bool_spec (side (0, 0) (pt a) (pt b)) 0) as [K|K]; [reflexivity|].
  rewrite Rabs_pos_eq in M by assumption. unfold EPSILON. rnum. now rewrite Rlt_bool_false by lra.
Qed.
Lemma lt_zero (a b : vec R) : side (0, 0) (pt a) (pt b) = 0 -> vy a <= 0 -> angle_lt a b = Ok (Rlt_bool (norm2 (pt a)) (norm2 (pt b))).
Proof.
  intros E Y. unfold angle_lt, angle_sort_predicate. rewrite area_side. change (pt (V (num 0) (num 0))) with ((0, 0) : point). rewrite E. rewrite !dist2_R. cbn [bind].
  change (vy (V (num 0) (num 0))) with (0 : R). unfold EPSILON. rnum. rewrite (Rlt_bool_false 0 0), Rlt_bool_true, Rlt_bool_false by lra.
  change (pt (V 0 0)) with ((0, 0) : point).
  assert (N : forall v : vec R, norm2 (psub (0, 0) (pt v)) = norm2 (pt v)) by (intros v; unfold norm2, psub, px, py; cbn; ring).
  rewrite !N. now destruct (Rlt_bool (norm2 (pt a)) (norm2 (pt b))).
Qed.
Lemma norm2_pos (p : point) : p <> (0, 0) -> 0 < norm2 p.
Proof.
  destruct p as [x y]. intros N. unfold norm2, px, py. cbn. assert (x <> 0 \/ y <> 0).
  { destruct (Req_EM_T x 0) as [->|]; [|now left]. right. intros ->. now apply N. }
  destruct H as [H|H]; [pose proof (Rsqr_pos_lt x H)|pose proof (Rsqr_pos_lt y H)]; unfold Rsqr in *; nra.
Qed.
Section Cmp.
  Context (l : list (vec R)) (o : vec R).
  Hypothesis GP : general_position (map pt l).
  Hypothesis IO : In o l.
  Hypothesis EO : pt o = (0, 0).
  Hypothesis LOW : forall v, In v l -> vy v <= 0.
  Lemma not_o v : In v l -> v <> o -> pt v <> (0, 0).
  Proof.
    intros Hv Nv E. apply Nv. destruct GP as [ND _]. clear - ND Hv IO E EO. induction l as [|a k IH]; [easy|]. cbn [map] in ND. inversion ND as [|x y N1 N2]; subst.
    destruct Hv as [->|Hv], IO as [I|I]; auto; subst; exfalso; apply N1; [rewrite E, <- EO|rewrite EO, <- E]; now apply in_map.
  Qed.
  Lemma pt_inj v w : In v l -> In w l -> pt v = pt w -> v = w.
  Proof.
    destruct GP as [ND _]. clear - ND. induction l as [|a k IH]; [easy|]. cbn [map] in ND. inversion ND as [|x y N1 N2]; subst.
    intros [->|Hv] [->|Hw] E; auto; exfalso; apply N1; [rewrite E|rewrite <- E]; now apply in_map.
  Qed.
  Lemma lt_o v : In v l -> v <> o -> angle_lt o v = Ok true /\ angle_lt v o = Ok false.
  Proof.
    intros Hv Nv. pose proof (norm2_pos _ (not_o v Hv Nv)) as NP.
    rewrite !lt_zero; [|rewrite EO, side_O; cbn; ring|now apply LOW|rewrite EO, side_O; cbn; ring|now apply LOW].
    rewrite EO. assert (norm2 (0, 0) = 0) as -> by (unfold norm2, px, py; cbn; ring). rewrite Rlt_bool_true, Rlt_bool_false by lra. auto.
  Qed.
  Lemma lt_vw v w : In v l -> In w l -> v <> o -> w <> o -> v <> w -> side (0, 0) (pt v) (pt w) <> 0 /\ angle_lt v w = Ok (Rlt_bool (side (0, 0) (pt v) (pt w)) 0).
  Proof.
    intros Hv Hw Nv Nw N.
    assert (M : Rabs (side (0, 0) (pt v) (pt w)) >= 1/1000000).
    { destruct GP as [_ G]. apply G; try (now apply in_map); try (rewrite <- EO; now apply in_map).
      - apply not_eq_sym. now apply not_o.
      - intros E. apply N. now apply pt_inj.
      - apply not_eq_sym. now apply not_o. }
    split; [intros E; rewrite E, Rabs_R0 in M; lra|now apply lt_R].
  Qed.
  Lemma vec_eq_dec_pt v w : In v l -> In w l -> v = w \/ v <> w.
  Proof. intros Hv Hw. destruct (pt_dec (pt v) (pt w)) as [E|E]; [left; now apply pt_inj|right; congruence]. Qed.
  Lemma cmp_total a b : In a l -> In b l -> a <> b -> (angle_lt a b = Ok true /\ angle_lt b a = Ok false) \/ (angle_lt a b = Ok false /\ angle_lt b a = Ok true).
  Proof.
    intros Ha Hb N. destruct (vec_eq_dec_pt a o Ha IO) as [->|Na]; [left; apply lt_o; auto|].
    destruct (vec_eq_dec_pt b o Hb IO) as [->|Nb]; [right; destruct (lt_o a Ha Na); auto|].
    destruct (lt_vw a b Ha Hb Na Nb N) as [S1 ->]. destruct (lt_vw b a Hb Ha Nb Na (not_eq_sym N)) as [_ ->].
    rewrite (side_flip _ (pt a) (pt b)). destruct (Rlt_le_dec (side (0, 0) (pt a) (pt b)) 0).
    - left. now rewrite Rlt_bool_true, Rlt_bool_false by lra.
    - right. assert (0 < side (0, 0) (pt a) (pt b)) by lra. split; f_equal; [apply Rlt_bool_false|apply Rlt_bool_true]; lra.
  Qed.
  Lemma cmp_side a b : In a l -> In b l -> a <> o -> angle_lt a b = Ok true -> b <> o /\ side (0, 0) (pt a) (pt b) < 0.
  Proof.
    intros Ha Hb Na E. destruct (vec_eq_dec_pt b o Hb IO) as [->|Nb]; [destruct (lt_o a Ha Na); congruence|]. split; [exact Nb|].
    destruct (vec_eq_dec_pt a b Ha Hb) as [->|N].
    - rewrite lt_zero in E; [|rewrite side_O; ring|now apply LOW]. rewrite Rlt_bool_false in E by lra. discriminate.
    - destruct (lt_vw a b Ha Hb Na Nb N) as [_ E']. rewrite E' in E. injection E as E. now apply Rlt_bool_iff in E.
  Qed.
  Lemma cmp_trans a b c : In a l -> In b l -> In c l -> angle_lt a b = Ok true -> angle_lt b c = Ok true -> angle_lt a c = Ok true.
  Proof.
    intros Ha Hb Hc E1 E2.
    assert (Nb : b <> o). { intros ->. destruct (vec_eq_dec_pt a o Ha IO) as [->|Na]; [|destruct (lt_o a Ha Na); congruence].
      rewrite lt_zero in E1; [|rewrite side_O; ring|now apply LOW]. rewrite Rlt_bool_false in E1 by lra. discriminate. }
    destruct (cmp_side b c Hb Hc Nb E2) as [Nc S2].
    destruct (vec_eq_dec_pt a o Ha IO) as [->|Na]; [now apply lt_o|]. destruct (cmp_side a b Ha Hb Na E1) as [_ S1].
    assert (Nab : a <> b). { intros ->. rewrite side_O in S1. lra. }
    assert (Nbc : b <> c). { intros ->. rewrite side_O in S2. lra. }
    assert (Nac : a <> c). { intros ->. rewrite side_O in S1, S2. lra. }
    destruct (lt_vw a c Ha Hc Na Nc Nac) as [S3 ->]. f_equal. apply Rlt_bool_true. rewrite !side_O in *.
    pose proof (LOW a Ha) as Ya. pose proof (LOW b Hb) as Yb. pose proof (LOW c Hc) as Yc. unfold pt in *. cbn [fst snd] in *.
    assert (ID : vy b * (vx a * vy c - vy a * vx c) = vy a * (vx b * vy c - vy b * vx c) + vy c * (vx a * vy b - vy a * vx b)) by ring.
    destruct (Req_EM_T (vy b) 0) as [Zb|Zb].
    - exfalso. rewrite Zb in *. assert (vy a < 0 \/ vy c < 0). { destruct (Req_EM_T (vy a) 0) as [Za|]; [|left; lra]. right. destruct (Req_EM_T (vy c) 0) as [Zc|]; [|lra]. rewrite Za, Zc in S3. lra. }
      nra.
    - assert (KB : vy b < 0) by lra. destruct (Rlt_le_dec (vx a * vy c - vy a * vx c) 0) as [|K]; [assumption|]. exfalso.
      assert (0 <= vy a * (vx b * vy c - vy b * vx c)) by nra. assert (0 <= vy c * (vx a * vy b - vy a * vx b)) by nra.
      assert (vy b * (vx a * vy c - vy a * vx c) < 0) by nra. lra.
  Qed.
End Cmp.

(** ** The outline *)
Lemma inv_closed o st all : inv o st all -> forall a b, In (a, b) (closed_edges st) -> forall r, In r all -> r <> a -> r <> b -> side a b r > 0.
Proof.
  intros [ND (top & mid & SH) IN HE HS HT] a b Hab r Hr Na Nb. rewrite <- cyc_pairs_closed in Hab. rewrite SH in *. cbn [cyc_pairs] in Hab.
  rewrite path_open in Hab. apply in_app_iff in Hab as [Hab|[Hab|[]]].
  - assert (K : side b a r < 0); [|assert (E : side a b r = - side b a r) by (destruct a, b, r; sides; ring); lra].
    clear - HE Hab Hr Na Nb. revert HE Hab. generalize (top :: mid ++ [o]). intros l. induction l as [|c l IH]; [easy|]. destruct l as [|d l]; [easy|].
    cbn [links]. intros [H1 H2] Hab. change (open_pairs (c :: d :: l)) with ((c, d) :: open_pairs (d :: l)) in Hab. destruct Hab as [[= <- <-]|Hab]; [now apply H1|now apply IH].
  - assert (EL : last (top :: mid ++ [o]) top = o) by (rewrite app_comm_cons; apply last_last). rewrite EL in Hab. injection Hab as <- <-. cbn [hd] in HT. specialize (HT r Hr Na Nb). rewrite side_flip. lra.
Qed.
Lemma open_removelast {A} (a : A) l : open_pairs (a :: l) = removelast (closed_edges (a :: l)).
Proof. rewrite <- cyc_pairs_closed. cbn [cyc_pairs]. rewrite path_open. now rewrite removelast_last. Qed.

(** ** C124: Graham's scan
    If one of the points is the origin and none is above it, and the points are
    in general position, the Graham scan computes the convex hull: the vertices
    in clockwise order from the origin, the edges between consecutive vertices,
    and the edge between the origin and the last vertex (listed from the
    origin).  For inputs placed elsewhere it does not (C76). *)
Theorem C124_graham_R : forall (pts : list (vec R)) sorter, sorts angle_lt sorter -> (3 <= List.length pts)%nat -> general_position (map pt pts) ->
  (exists v, In v pts /\ pt v = (0, 0)) -> (forall v, In v pts -> vy v <= 0) ->
  exists vs es h, ConvexHull_compute sorter GRAHAN_SCAN (ConvexHull_init pts) = Ok h /\
    hull_vertices h = vs /\ h_input h = vs /\ h_edges h = es /\
    (3 <= List.length vs)%nat /\ incl vs pts /\ (exists v t, vs = v :: t /\ pt v = (0, 0)) /\
    strictly_convex (rev (map pt vs)) /\
    (forall p, In p pts -> In p vs \/ strictly_inside (rev (map pt vs)) (pt p)) /\
    (forall p, In p pts -> Polygon2D_contains vs p true = Ok true) /\
    exists first mid lst, vs = first :: mid ++ [lst] /\
      es = map (fun e => Segment2D_of_points (fst e) (snd e)) (removelast (closed_edges vs)) ++ [Segment2D_of_points first lst].
Proof.
  intros pts sorter SO Hn GP (o & IO & EO) LOW.
  cbn [ConvexHull_compute]. unfold compute_graham_scan. change (h_input (clear_results (ConvexHull_init pts))) with pts.
  set (d := mkVec 0 0 true : vec R). destruct (min_index_R pts d) as (mi & -> & Hmi & _); [intros ->; cbn in Hn; lia|].
  destruct (Nat.ltb_spec (List.length pts) 3) as [|_]; [lia|].
  assert (SW : exists p0 l1 l2, py_get pts 0 = Ok p0 /\ py_set pts 0 (nth mi pts d) = Ok l1 /\ py_set l1 (Z.of_nat mi) p0 = Ok l2 /\ Permutation l2 pts).
  { destruct pts as [|p0 q]; [cbn in Hn; lia|]. 
    assert (E1 : py_get (p0 :: q) 0 = Ok p0) by (apply (py_get_nat (p0 :: q) 0 p0); reflexivity).
    assert (E2 : py_set (p0 :: q) 0 (nth mi (p0 :: q) d) = Ok (nth mi (p0 :: q) d :: q)) by exact (set_mid [] p0 q _).
    assert (E3 : exists l2, py_set (nth mi (p0 :: q) d :: q) (Z.of_nat mi) p0 = Ok l2).
    { unfold py_set, py_index. cbn [List.length] in *. destruct (Z.ltb_spec (Z.of_nat mi) 0); [lia|]. rewrite (proj2 (Z.leb_le _ _)), (proj2 (Z.ltb_lt _ _)) by lia. cbn [andb]. eauto. }
    destruct E3 as (l2 & E3). exists p0, (nth mi (p0 :: q) d :: q), l2. split; [exact E1|]. split; [exact E2|]. split; [exact E3|].
    exact (py_swap_perm _ _ _ _ _ _ _ E1 (py_get_nth _ _ d Hmi) E2 E3). }
  destruct SW as (p0 & l1 & l2 & E1 & E2 & E3 & PM). rewrite E1. cbn [bind]. rewrite (py_get_nth _ _ d Hmi). cbn [bind]. rewrite E2. cbn [bind]. rewrite E3. cbn [bind].
  assert (GP2 : general_position (map pt l2)).
  { destruct GP as [ND G]. assert (PP : Permutation (map pt l2) (map pt pts)) by now apply Permutation_map.
    split; [apply (Permutation_NoDup (Permutation_sym PP)); exact ND|]. intros a b c A B C. apply G; now apply (Permutation_in _ PP). }
  assert (IO2 : In o l2) by (apply (Permutation_in _ (Permutation_sym PM)); exact IO).
  assert (LOW2 : forall v, In v l2 -> vy v <= 0) by (intros v Hv; apply LOW; now apply (Permutation_in _ PM)).
  destruct (SO l2) as (l3 & E4 & P3 & FO).
  { destruct GP2 as [ND _]. now apply NoDup_map_inv in ND. }
  { apply (cmp_total l2 o); assumption. }
  { apply (cmp_trans l2 o); assumption. }
  rewrite E4. cbn [bind].
  assert (P3' : Permutation l3 pts) by (rewrite <- P3; exact PM).
  assert (IN3 : forall v, In v l3 <-> In v l2) by (intros v; split; apply Permutation_in; [symmetry|]; exact P3).
  assert (L3 : List.length l3 = List.length pts) by now apply Permutation_length.
  destruct l3 as [|o' l3]; [cbn in L3; lia|].
  assert (Eo : o' = o).
  { destruct (vec_eq_dec_pt l2 GP2 o' o) as [|N]; [apply IN3; now left|exact IO2|assumption|]. exfalso.
    inversion FO as [|x y F1 F2]; subst. rewrite Forall_forall in F1.
    assert (I : In o l3). { apply IN3 in IO2. destruct IO2; [easy|assumption]. }
    destruct (lt_o l2 o GP2 IO2 EO LOW2 o') as [_ Q]; [apply IN3; now left|exact N|]. rewrite (F1 o I) in Q. discriminate. }
  subst o'. destruct l3 as [|q1 rest]; [cbn in L3; lia|].
  assert (ND3 : NoDup (map pt (o :: q1 :: rest))). { apply (Permutation_NoDup (l := map pt pts)); [apply Permutation_map; now symmetry|apply GP]. }
  assert (M3 : margin (map pt (o :: q1 :: rest))). { refine (margin_incl _ _ _ (proj2 GP)). intros x Hx. refine (Permutation_in _ _ Hx). now apply Permutation_map. }
  assert (SD : ForallOrdPairs (fun a b => side (pt o) (pt a) (pt b) < 0) (q1 :: rest)).
  { inversion FO as [|x y F1 F2]; subst. assert (NO : forall v, In v (q1 :: rest) -> v <> o).
    { intros v Hv ->. cbn [map] in ND3. inversion ND3 as [|x y N1 N2]; subst. apply N1. now apply (in_map pt (q1 :: rest)). }
    assert (I2 : forall v, In v (q1 :: rest) -> In v l2) by (intros v Hv; apply IN3; now right).
    rewrite EO. clear - F2 NO I2 GP2 IO2 EO LOW2. revert NO I2. induction F2 as [|a k A F IH]; intros NO I2; constructor.
    - rewrite Forall_forall in *. intros b Hb. apply (cmp_side l2 o GP2 IO2 EO LOW2 a b); [apply I2; now left|apply I2; now right|apply NO; now left|now apply A].
    - apply IH; intros v Hv; [apply NO|apply I2]; now right. }
  assert (IV : inv (pt o) (map pt [q1; o]) (map pt ([q1; o] ++ []))).
  { cbn [map app]. cbn [map] in ND3. inversion ND3 as [|x y N1 N2]; subst. constructor.
    - constructor; [|repeat constructor; easy]. intros [E|[]]. apply N1. left. now rewrite E.
    - now exists (pt q1), [].
    - easy.
    - cbn. split; [|easy]. intros r [<-|[<-|[]]] A B; easy.
    - cbn. split; [|easy]. intros N. easy.
    - cbn. intros r [<-|[<-|[]]] A B; easy. }
  destruct (scan_R o rest [q1; o] [] 2 1) as (st & J & R1 & R2 & R3 & (s & t & R4)); try reflexivity; try assumption.
  { exists [], q1. reflexivity. }
  { cbn [app]. apply (Permutation_NoDup (l := map pt (o :: q1 :: rest))); [apply Permutation_map; apply perm_swap|exact ND3]. }
  { refine (margin_incl _ _ _ M3). intros x Hx. refine (Permutation_in _ _ Hx). apply Permutation_map. apply perm_swap. }
  { now inversion SD. }
  { intros r p [<-|[<-|[]]] Hp N; [|easy]. inversion SD as [|x y F1 F2]; subst. rewrite Forall_forall in F1. now apply F1. }
  cbn [rev app] in R1. replace (List.length pts - 2)%nat with (List.length rest) by (cbn in L3; lia). rewrite R1. cbn [bind].
  assert (ED : py_del_from (rev st ++ J) (Z.of_nat (List.length st) - 1 + 1) = rev st).
  { unfold py_del_from. rewrite (proj2 (Z.ltb_ge _ _)) by lia. replace (Z.to_nat (Z.of_nat (List.length st) - 1 + 1)) with (List.length (rev st) + 0)%nat by (rewrite rev_length; lia).
    rewrite firstn_app_2. cbn [firstn]. apply app_nil_r. }
  rewrite ED. clear ED.
  assert (PF : Permutation (st ++ J) pts). { rewrite R3. cbn [app]. rewrite perm_swap. exact P3'. }
  set (vs := rev st). assert (EV : rev (map pt vs) = map pt st) by (unfold vs; rewrite <- map_rev; f_equal; apply rev_involutive).
  assert (SV : vs = o :: t :: rev s). { unfold vs. rewrite R4, rev_app_distr. reflexivity. }
  pose proof (inv_closed _ _ _ R2) as CL.
  assert (SC : strictly_convex (rev (map pt vs))).
  { rewrite EV. split; [apply R2|]. intros a b v Hab Hv. apply (CL a b Hab). rewrite map_app. apply in_app_iff. now left. }
  assert (INC : incl vs pts). { intros v Hv. unfold vs in Hv. apply in_rev in Hv. apply (Permutation_in _ PF). apply in_app_iff. now left. }
  assert (SI : forall p, In p pts -> In p vs \/ strictly_inside (rev (map pt vs)) (pt p)).
  { intros p Hp. assert (Hp' : In p (st ++ J)) by (apply (Permutation_in _ (Permutation_sym PF)); exact Hp).
    destruct (in_dec pt_dec (pt p) (map pt st)) as [I|N].
    - left. apply in_map_iff in I. destruct I as (p' & Epp & I). assert (p' = p) as <-; [|unfold vs; now apply in_rev in I].
      apply (pt_inj pts GP); [|exact Hp|exact Epp]. apply INC. unfold vs. now apply -> in_rev.
    - right. rewrite EV. intros a b Hab. apply (CL a b Hab); [now apply in_map|intros E; apply N; rewrite E|intros E; apply N; rewrite E].
      + pose proof (in_closed _ _ Hab). cbn [fst snd] in *. tauto.
      + pose proof (in_closed _ _ Hab). cbn [fst snd] in *. tauto. }
  assert (V3 : (3 <= List.length vs)%nat).
  { rewrite SV. destruct s as [|s0 s]; [|cbn [rev List.length]; rewrite app_length; cbn; lia]. exfalso.
    assert (NN : exists r, In r pts /\ ~ In r [o; t]).
    { destruct J as [|r J]; [apply Permutation_length in PF; rewrite R4 in PF; cbn in PF; lia|]. exists r. split; [apply (Permutation_in _ PF); rewrite R4; cbn; auto|].
      assert (NDA : NoDup (st ++ r :: J)). { apply (Permutation_NoDup (Permutation_sym PF)). destruct GP as [ND _]. now apply NoDup_map_inv in ND. }
      apply NoDup_remove_2 in NDA. intros Hr. apply NDA. rewrite R4. cbn in *. tauto. }
    destruct NN as (r & Hr & Nr). destruct (SI r Hr) as [I|I]; [apply Nr; rewrite SV in I; exact I|].
    rewrite EV, R4 in I. cbn [app map] in I. pose proof (I (pt t) (pt o) ltac:(cbn; auto)) as I1. pose proof (I (pt o) (pt t) ltac:(cbn; auto)) as I2.
    assert (E : side (pt t) (pt o) (pt r) = - side (pt o) (pt t) (pt r)) by (destruct (pt o), (pt t), (pt r); sides; ring). lra. }
  assert (BE : build_edges vs = Ok (map (fun e => Segment2D_of_points (fst e) (snd e)) (removelast (closed_edges vs)))).
  { rewrite SV. rewrite build_edges_gen by (now apply veq_iff). do 2 f_equal. rewrite <- open_removelast. rewrite <- SV.
    assert (NDv : NoDup (map pt vs)). { rewrite <- (rev_involutive (map pt vs)). apply NoDup_rev. apply SC. }
    assert (EL : last (t :: rev s) o = last vs o) by (rewrite SV; reflexivity). rewrite EL. clear - NDv. clearbody vs.
    induction vs as [|a l IH]; [reflexivity|]. destruct l as [|b l]; [reflexivity|]. change (open_pairs (a :: b :: l)) with ((a, b) :: open_pairs (b :: l)). cbn [filter fst].
    cbn [map] in NDv. inversion NDv as [|x y N1 N2]; subst. change (last (a :: b :: l) o) with (last (b :: l) o). rewrite (IH N2).
    destruct (Vector2D_eq a (last (b :: l) o)) eqn:E; [|reflexivity]. exfalso. apply N1. apply veq_iff in E. rewrite E.
    assert (I : In (last (b :: l) o) (b :: l)). { clear. rewrite (app_removelast_last o (l := b :: l)) at 2 by discriminate. apply in_app_iff. right. now left. }
    exact (in_map pt _ _ I). }
  rewrite BE. cbn [bind]. assert (G0 : py_get vs 0 = Ok o) by (rewrite SV; exact (py_get_nat (o :: t :: rev s) 0 o eq_refl)). rewrite G0. cbn [bind].
  assert (VL : exists mid lst, vs = o :: mid ++ [lst]).
  { rewrite SV. exists (removelast (t :: rev s)), (last (t :: rev s) o). f_equal. apply app_removelast_last. discriminate. }
  destruct VL as (mid & lst & VL).
  assert (G1 : py_get vs (-1) = Ok lst).
  { rewrite VL. unfold py_get, py_index. rewrite app_comm_cons. rewrite app_length. cbn [List.length].
    replace (-1 <? 0)%Z with true by reflexivity. rewrite (proj2 (Z.leb_le _ _)), (proj2 (Z.ltb_lt _ _)) by lia. cbn [andb].
    replace (Z.to_nat (-1 + Z.of_nat (S (List.length mid) + 1))) with (List.length (o :: mid)) by (cbn [List.length]; lia).
    now rewrite nth_error_app2, Nat.sub_diag by lia. }
  rewrite G1. cbn [bind]. eexists vs, _, _. split; [reflexivity|]. split; [reflexivity|]. split; [reflexivity|]. split; [reflexivity|].
  split; [exact V3|]. split; [exact INC|]. split; [exists o, (t :: rev s); auto|]. split; [exact SC|]. split; [exact SI|]. split; [|exists o, mid, lst; auto].
  intros p Hp. destruct (SI p Hp) as [Hv|Hin]; [now apply C70_vertices_R|].
  assert (NO : ~ on_outline (map pt vs) (pt p)).
  { intros ([a b] & He & (k & _ & E)). assert (He' : In (b, a) (closed_edges (rev (map pt vs)))).
    { apply (Permutation_in _ (Permutation_sym (closed_rev (map pt vs)))). apply in_map_iff. now exists (a, b). }
    specialize (Hin b a He'). cbn [fst snd] in E. rewrite E in Hin. clear - Hin. destruct a, b. unfold lerp in Hin. sides. nra. }
  pose proof (contains_parity vs p true NO ltac:(discriminate)) as EC. rewrite EC. f_equal.
  destruct (C71_convex_R vs p true _ ltac:(lia) NO EC) as [_ H2]. now apply H2.
Qed.
Example C124_nonvacuous : let pts := [mkVec 1 (-3) true; mkVec 3 0 true; mkVec 1 (-1) true; mkVec 0 0 true; mkVec (-2) (-1) true] in
  sorts (@angle_lt R _) (py_sort_small angle_lt) /\ (3 <= List.length pts)%nat /\ general_position (map pt pts) /\
  (exists v, In v pts /\ pt v = (0, 0)) /\ (forall v, In v pts -> vy v <= 0).
Proof.
  intros pts. split; [apply C124_python_sort|]. split; [cbn; lia|]. split; [split|split].
  - cbn. unfold pt; cbn. repeat constructor; cbn; intros K; repeat destruct K as [K|K]; try easy; injection K; intros; lra.
  - cbn. unfold pt; cbn. intros a b c [<-|[<-|[<-|[<-|[<-|[]]]]]] [<-|[<-|[<-|[<-|[<-|[]]]]]] [<-|[<-|[<-|[<-|[<-|[]]]]]] N1 N2 N3; try easy;
      unfold side, cross, psub, px, py; cbn [fst snd]; unfold Rabs; destruct Rcase_abs; lra.
  - exists (mkVec 0 0 true). split; [cbn; auto 8|reflexivity].
  - intros v [<-|[<-|[<-|[<-|[<-|[]]]]]]; cbn; lra.
Qed.

(** ** C125: comparing AngleSortPredicate objects
    [<] and [<=] are one relation and so are [>] and [>=]; exactly one of the
    two holds; [==] never holds, not even of an object and itself.  Read
    around the base, [a < b] means: turning from [a] to [b] is clockwise, or
    the three points are on a line (up to the tolerance) and [a] is the farther
    one if it is above the base and the nearer one if not. *)
Theorem C125_sort_keys : forall (T : Type) (N : Num T) (a b : sort_key T),
  (exists e, key_lt a b = Raise e /\ key_gt a b = Raise e /\ key_le a b = Raise e /\ key_ge a b = Raise e /\ key_eq a b = Raise e /\ key_ne a b = Raise e) \/
  (exists r, key_lt a b = Ok r /\ key_le a b = Ok r /\ key_gt a b = Ok (negb r) /\ key_ge a b = Ok (negb r) /\ key_eq a b = Ok false /\ key_ne a b = Ok true).
Proof.
  intros T N a b. unfold key_lt, key_le, key_gt, key_ge, key_eq, key_ne.
  assert (K : (exists e, angle_sort_predicate (k_obj a) (k_obj b) (k_base a) = Raise e) \/ angle_sort_predicate (k_obj a) (k_obj b) (k_base a) = Ok (-1)%Z \/ angle_sort_predicate (k_obj a) (k_obj b) (k_base a) = Ok 1%Z).
  { unfold angle_sort_predicate. destruct (Vector2D_dist2 (k_base a) (k_obj a)); destruct (Vector2D_dist2 (k_base a) (k_obj b)); cbn [bind];
      repeat match goal with |- context [if ?c then _ else _] => destruct c end; eauto. }
  destruct K as [[e ->]|[->| ->]]; cbn [bind]; [left; exists e|right; exists true|right; exists false]; repeat split.
Qed.
Theorem C125_sort_keys_R : forall (a b : sort_key R), exists r, key_lt a b = Ok r /\ key_gt a b = Ok (negb r) /\
  (r = true <-> side (pt (k_base a)) (pt (k_obj a)) (pt (k_obj b)) < 0 \/
     (side (pt (k_base a)) (pt (k_obj a)) (pt (k_obj b)) < 1/1000000 /\
      ((vy (k_base a) < vy (k_obj a) /\ edist (pt (k_base a)) (pt (k_obj b)) < edist (pt (k_base a)) (pt (k_obj a))) \/
       (vy (k_obj a) <= vy (k_base a) /\ edist (pt (k_base a)) (pt (k_obj a)) < edist (pt (k_base a)) (pt (k_obj b)))))).
Proof.
  intros [a p] [b q]. cbn [k_obj k_base]. unfold key_lt, key_gt. cbn [k_obj k_base].
  assert (DD : forall x y : vec R, norm2 (psub (pt p) (pt x)) < norm2 (psub (pt p) (pt y)) <-> edist (pt p) (pt x) < edist (pt p) (pt y)).
  { intros x y. unfold edist, norm. split; [intros; apply sqrt_lt_1; try apply norm2_nonneg; assumption|]. intros HH. apply sqrt_lt_0_alt in HH. exact HH. }
  unfold angle_sort_predicate. rewrite area_side, !dist2_R. cbn [bind]. unfold EPSILON. rnum. pose proof (DD a b) as D1. pose proof (DD b a) as D2.
  set (s := side (pt p) (pt a) (pt b)) in *.
  destruct (Rlt_bool_spec s 0); [exists true; cbn; repeat split; auto|].
  destruct (Rlt_bool_spec s (1 / 1000000)); [|exists false; cbn; repeat split; try discriminate; lra].
  destruct (Rlt_bool_spec (vy p) (vy a)).
  - destruct (Rlt_bool_spec (norm2 (psub (pt p) (pt b))) (norm2 (psub (pt p) (pt a)))) as [K|K]; cbn [bind].
    + exists true. cbn. repeat split; intros _. right. split; [assumption|]. left. split; [assumption|tauto].
    + exists false. cbn. repeat split; try discriminate. intros [?|[_ [[_ Q]|[Q _]]]]; [lra| |lra]. apply D2 in Q. lra.
  - destruct (Rlt_bool_spec (norm2 (psub (pt p) (pt a))) (norm2 (psub (pt p) (pt b)))) as [K|K]; cbn [bind].
    + exists true. cbn. repeat split; intros _. right. split; [assumption|]. right. split; [assumption|tauto].
    + exists false. cbn. repeat split; try discriminate. intros [?|[_ [[Q _]|[_ Q]]]]; [lra|lra|]. apply D1 in Q. lra.
Qed.
(** The comparison is not an order: an object is greater than itself. *)
Theorem C125_irreflexive_refuted : forall a : sort_key R, key_gt a a = Ok true /\ key_le a a = Ok false.
Proof.
  intros a. destruct (C125_sort_keys_R a a) as (r & E1 & E2 & E3). destruct (C125_sort_keys R _ a a) as [(e & Q & _)|(r' & Q1 & Q2 & _)]; [congruence|].
  assert (r' = r) by congruence. subst r'. assert (r = false) as ->; [|auto].
  apply not_true_iff_false. rewrite E3. assert (S0 : side (pt (k_base a)) (pt (k_obj a)) (pt (k_obj a)) = 0) by (destruct (pt (k_base a)), (pt (k_obj a)); sides; ring).
  rewrite S0. lra.
Qed.
Example C125_nonvacuous : exists a b : sort_key R, key_lt a b = Ok true /\ key_lt b a = Ok false.
Proof.
  exists (mkKey (mkVec 1 0 true) (mkVec 0 0 true)), (mkKey (mkVec 0 (-1) true) (mkVec 0 0 true)).
  destruct (C125_sort_keys_R (mkKey (mkVec 1 0 true) (mkVec 0 0 true)) (mkKey (mkVec 0 (-1) true) (mkVec 0 0 true))) as (r & -> & _ & E).
  destruct (C125_sort_keys_R (mkKey (mkVec 0 (-1) true) (mkVec 0 0 true)) (mkKey (mkVec 1 0 true) (mkVec 0 0 true))) as (r' & -> & _ & E').
  unfold pt in *. cbn [k_obj k_base vx vy] in *. sides. split; f_equal; [apply E; lra|]. apply not_true_iff_false. rewrite E'. intros [?|[? _]]; lra.
Qed.
