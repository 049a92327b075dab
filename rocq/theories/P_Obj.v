(** * P_Obj: programs over mutable objects behave like programs over values. *)
From Coq Require Import ZArith List Bool Arith Lia.
From Verif Require Import Base Types M_Angle M_Vector M_Line M_Ray M_Triangle
  M_Segment M_Circle M_Sector M_Rect M_Polygon M_Hull M_Heap M_Obj Spec3.
Import ListNotations.
Local Open Scope py_scope.
Local Open Scope num_scope.
Local Open Scope nat_scope.

(** ** Lists *)
Lemma set_len {A} (l : list A) i a : length (list_set l i a) = length l.
Proof. revert i; induction l as [|x l IH]; intros [|i]; cbn; auto. Qed.
Lemma nth_set_eq {A} (l : list A) i a : i < length l -> nth_error (list_set l i a) i = Some a.
Proof. revert i; induction l as [|x l IH]; intros [|i] Hi; cbn in *; auto; try lia. apply IH; lia. Qed.
Lemma nth_set_ne {A} (l : list A) i j a : i <> j -> nth_error (list_set l i a) j = nth_error l j.
Proof. revert i j; induction l as [|x l IH]; intros [|i] [|j] Hi; cbn in *; auto; try lia. Qed.
Lemma nth_app_old {A} (l m : list A) i x : nth_error l i = Some x -> nth_error (l ++ m) i = Some x.
Proof. intro E. rewrite nth_error_app1; auto. apply nth_error_Some. congruence. Qed.
Lemma nth_app_new {A} (l : list A) x : nth_error (l ++ [x]) (length l) = Some x.
Proof. now rewrite nth_error_app2, Nat.sub_diag by lia. Qed.
Lemma nth_lt {A} (l : list A) i x : nth_error l i = Some x -> i < length l.
Proof. intro E. apply nth_error_Some. congruence. Qed.
Lemma set_split {A} (l : list A) i x : nth_error l i = Some x ->
  exists p q, l = p ++ x :: q /\ length p = i /\ forall y, list_set l i y = p ++ y :: q.
Proof.
  revert i; induction l as [|a l IH]; intros [|i] E; cbn in E; try discriminate.
  - injection E as <-. exists [], l. auto.
  - destruct (IH _ E) as (p & q & -> & <- & Hs). exists (a :: p), q. cbn. repeat split; auto.
    intro y. now rewrite Hs.
Qed.
Lemma map_set {A B} (f : A -> B) l i y : map f (list_set l i y) = list_set (map f l) i (f y).
Proof. revert i; induction l as [|a l IH]; intros [|i]; cbn; auto. now rewrite IH. Qed.
Lemma nodup_swap {A} (p f f' q : list A) :
  NoDup (p ++ f ++ q) -> NoDup f' ->
  (forall x, In x f' -> In x f \/ (~ In x p /\ ~ In x q)) -> NoDup (p ++ f' ++ q).
Proof.
  intros Hd Hf Hi. induction p as [|a p IH]; cbn in *.
  - induction f' as [|b f' IHf]; cbn.
    + clear Hi Hf. induction f; cbn in *; auto. inversion Hd; auto.
    + inversion Hf as [|? ? Hb Hf']; subst. constructor.
      * rewrite in_app_iff. intros [C|C]; [tauto|].
        destruct (Hi b (or_introl eq_refl)) as [D|[_ D]]; [|tauto].
        clear - Hd D C. induction f as [|c f IH]; cbn in *; [tauto|]. inversion Hd; subst.
        destruct D as [->|D]; [rewrite in_app_iff in H1; tauto|auto].
      * apply IHf; auto. intros x Hx. apply Hi. now right.
  - inversion Hd as [|? ? Ha Hp]; subst. constructor.
    + rewrite !in_app_iff in *. intros [C|[C|C]]; try tauto.
      destruct (Hi a C) as [D|[D _]]; [tauto|]. apply D; now left.
    + apply IH; auto. intros x Hx. destruct (Hi x Hx) as [D|[D E]]; auto. right. split; auto.
Qed.

Lemma nodup_disj {A} (p q : list A) x : NoDup (p ++ q) -> In x p -> In x q -> False.
Proof.
  induction p as [|a p IH]; cbn; [tauto|]. intros Hd. inversion Hd as [|? ? Ha Hp]; subst.
  intros [->|Hx] Hq; auto. apply Ha. rewrite in_app_iff. tauto.
Qed.

Lemma nodup_r {A} (p q : list A) : NoDup (p ++ q) -> NoDup q.
Proof. induction p; cbn; auto. intro Hd. inversion Hd; auto. Qed.
Lemma nodup_l {A} (p q : list A) : NoDup (p ++ q) -> NoDup p.
Proof.
  induction p as [|a p IH]; cbn; [constructor|]. intro Hd. inversion Hd as [|? ? Ha Hp]; subst.
  constructor; auto. rewrite in_app_iff in Ha. tauto.
Qed.

Section Obj.
  Context {T : Type} `{Num T}.
  Implicit Types (h : heap T) (r : ref) (v w : vec T) (e : @env T).

  (** ** Ownership: the cells that make up an object *)
  Inductive owns h : ref -> list ref -> ovalue T -> Prop :=
  | own_vec r v : nth_error h r = Some (OVec v) -> owns h r [r] (WVec v)
  | own_ang r a : nth_error h r = Some (OAng a) -> owns h r [r] (WAng a)
  | own_size r s : nth_error h r = Some (OSize s) -> owns h r [r] (WSize s)
  | own_seg r a b v w :
      nth_error h r = Some (OSeg a b) -> nth_error h a = Some (OVec v) ->
      nth_error h b = Some (OVec w) -> owns h r [r; a; b] (WSeg (mkSeg v w))
  | own_rect r t s b v z :
      nth_error h r = Some (ORect t s b) -> nth_error h t = Some (OVec v) ->
      nth_error h s = Some (OSize z) -> owns h r [r; t; s] (WRect v z)
  | own_tri r a b c u v w :
      nth_error h r = Some (OTri a b c) -> nth_error h a = Some (OVec u) ->
      nth_error h b = Some (OVec v) -> nth_error h c = Some (OVec w) ->
      owns h r [r; a; b; c] (WTri (mkTri u v w))
  | own_circ r c x v :
      nth_error h r = Some (OCirc c x) -> nth_error h c = Some (OVec v) ->
      owns h r [r; c] (WCirc (mkCircle v x))
  | own_ray r a b v d :
      nth_error h r = Some (ORay a b) -> nth_error h a = Some (OVec v) ->
      nth_error h b = Some (OAng d) -> owns h r [r; a; b] (WRay (mkRay v d))
  | own_sector r c x y a b v d f :
      nth_error h r = Some (OSector c x y a b) -> nth_error h c = Some (OVec v) ->
      nth_error h a = Some (OAng d) -> nth_error h b = Some (OAng f) ->
      owns h r [r; c; a; b] (WSector (mkSector v x y d f))
  | own_poly r l xs vs :
      nth_error h r = Some (OPoly l) -> nth_error h l = Some (OList xs) ->
      Forall2 (fun x v => nth_error h x = Some (OVec v)) xs vs ->
      owns h r (r :: l :: xs) (WPoly vs).

  Lemma owns_reads h r fp x : owns h r fp x -> reads h r x.
  Proof. destruct 1; econstructor; eauto. Qed.

  Lemma owns_lt h r fp x : owns h r fp x -> forall c, In c fp -> c < length h.
  Proof.
    destruct 1 as [| | | | | | | | |r l xs vs E1 E2 E3]; cbn; intros ? HI;
      repeat (destruct HI as [<-|HI]; [eapply nth_lt; eassumption|]); try tauto.
    clear E2. revert HI. induction E3; cbn; [tauto|]. intros [<-|HI]; eauto using nth_lt.
  Qed.

  (** cells equal up to the cached validity flag *)
  Definition cell_eq (a b : option (obj T)) :=
    a = b \/ exists t s c d, a = Some (ORect t s c) /\ b = Some (ORect t s d).
  Lemma cell_eq_val h h' c o : cell_eq (nth_error h c) (nth_error h' c) ->
    nth_error h c = Some o -> match o with ORect _ _ _ => False | _ => True end ->
    nth_error h' c = Some o.
  Proof. intros [E|(t & s & x & y & E & E')] Ho; [congruence|]. rewrite E in Ho. injection Ho as <-. tauto. Qed.
  Lemma owns_frame h h' r fp x : owns h r fp x ->
    (forall c, In c fp -> cell_eq (nth_error h c) (nth_error h' c)) -> owns h' r fp x.
  Proof.
    destruct 1; intros Hc;
      try (econstructor; (eapply cell_eq_val; [apply Hc; cbn; tauto|eassumption|exact I])).
    - destruct (Hc r (or_introl eq_refl)) as [E|(t' & s' & c & d & E & E')].
      + econstructor; [rewrite <- E; eassumption| |];
          (eapply cell_eq_val; [apply Hc; cbn; tauto|eassumption|exact I]).
      + rewrite E in H0. injection H0 as -> -> ->.
        econstructor; [eassumption| |]; (eapply cell_eq_val; [apply Hc; cbn; tauto|eassumption|exact I]).
    - econstructor; [eapply cell_eq_val; [apply Hc; cbn; tauto|eassumption|exact I]..|].
      assert (Hx : forall c, In c xs -> cell_eq (nth_error h c) (nth_error h' c)) by (intros; apply Hc; cbn; auto).
      clear - H2 Hx. induction H2; constructor.
      + eapply cell_eq_val; [apply Hx; cbn; tauto|eassumption|exact I].
      + apply IHForall2. intros; apply Hx; now right.
  Qed.

  (** ** The invariant *)
  Definition slot := (ref * list ref * ovalue T)%type.
  Definition s_ref (s : slot) : ref := fst (fst s).
  Definition s_fp (s : slot) : list ref := snd (fst s).
  Definition s_val (s : slot) : ovalue T := snd s.
  Record inv h (ws : list slot) : Prop := {
    inv_own : Forall (fun s => owns h (s_ref s) (s_fp s) (s_val s)) ws;
    inv_sep : NoDup (concat (map s_fp ws)) }.

  Lemma inv_slot h ws i s : inv h ws -> nth_error ws i = Some s -> owns h (s_ref s) (s_fp s) (s_val s).
  Proof. intros [Ho _] E. rewrite Forall_forall in Ho. apply Ho. eapply nth_error_In; eauto. Qed.
  Lemma inv_lt h ws : inv h ws -> forall c, In c (concat (map s_fp ws)) -> c < length h.
  Proof.
    intros [Ho _] c Hc. apply in_concat in Hc as (fp & Hfp & Hc). apply in_map_iff in Hfp as (s & <- & Hs).
    rewrite Forall_forall in Ho. eapply owns_lt; eauto.
  Qed.

  Lemma inv_new h h' ws r fp x : inv h ws ->
    (forall c, c < length h -> nth_error h' c = nth_error h c) ->
    owns h' r fp x -> NoDup fp -> (forall c, In c fp -> length h <= c) ->
    inv h' (ws ++ [(r, fp, x)]).
  Proof.
    intros Hi Hf Ho Hn Hl. pose proof (inv_lt _ _ Hi) as Hlt. destruct Hi as [Hown Hsep]. split.
    - apply Forall_app. split; [|constructor; auto].
      rewrite Forall_forall in *. intros s Hs. eapply owns_frame; [apply Hown; auto|].
      intros c Hc. left. symmetry. apply Hf. eapply owns_lt; [apply Hown|]; eauto.
    - rewrite map_app, concat_app. cbn. rewrite app_nil_r.
      clear - Hsep Hn Hl Hlt. induction (concat (map s_fp ws)) as [|a l IH]; cbn in *; auto.
      inversion Hsep; subst. constructor; auto.
      rewrite in_app_iff. intros [C|C]; [tauto|]. apply Hl in C. specialize (Hlt a (or_introl eq_refl)). lia.
  Qed.

  Lemma inv_upd h h' ws i r fp x fp' x' : inv h ws -> nth_error ws i = Some (r, fp, x) ->
    (forall c, c < length h -> ~ In c fp -> nth_error h' c = nth_error h c) ->
    owns h' r fp' x' -> NoDup fp' -> (forall c, In c fp' -> In c fp \/ length h <= c) ->
    inv h' (list_set ws i (r, fp', x')).
  Proof.
    intros Hi Hn Hf Ho Hd Hl. pose proof (inv_lt _ _ Hi) as Hlt. destruct Hi as [Hown Hsep].
    destruct (set_split _ _ _ Hn) as (p & q & -> & _ & ->).
    rewrite map_app, concat_app in *. cbn in *. split.
    - apply Forall_app in Hown as [Hp Hq]. inversion Hq as [|? ? Hr Hq']; subst. cbn in Hr.
      assert (K : forall l, (forall c, In c (concat (map s_fp l)) -> c < length h /\ ~ In c fp) ->
                 Forall (fun s => owns h (s_ref s) (s_fp s) (s_val s)) l ->
                 Forall (fun s => owns h' (s_ref s) (s_fp s) (s_val s)) l).
      { intros l Hlc Hl'. rewrite Forall_forall in *. intros s Hs. eapply owns_frame; [apply Hl'; auto|].
        intros c Hc. left. symmetry. destruct (Hlc c).
        - apply in_concat. exists (s_fp s). split; auto. now apply in_map.
        - now apply Hf. }
      apply Forall_app. split; [|constructor]; auto; apply K; auto; intros c Hc; split;
        try (apply Hlt; rewrite !in_app_iff; tauto).
      + intro C. apply (nodup_disj _ _ c Hsep); auto. apply in_app_iff. now left.
      + intro C. apply nodup_r in Hsep. now apply (nodup_disj _ _ c Hsep).
    - rewrite map_app, concat_app. cbn. eapply nodup_swap; eauto. intros c Hc. destruct (Hl c Hc) as [D|D]; [now left|right].
      split; intro C; (enough (c < length h) by lia); apply Hlt; rewrite !in_app_iff; tauto.
  Qed.

  Lemma inv_flag h ws r t s b b' : inv h ws -> nth_error h r = Some (ORect t s b) ->
    inv (list_set h r (ORect t s b')) ws.
  Proof.
    intros [Hown Hsep] E. split; auto. rewrite Forall_forall in *. intros x Hx.
    eapply owns_frame; [now apply Hown|]. intros c _. destruct (Nat.eq_dec r c) as [<-|Hc].
    - right. rewrite nth_set_eq by (eapply nth_lt; eauto). rewrite E. repeat eexists.
    - left. now rewrite nth_set_ne.
  Qed.

  Lemma inv_nodup h ws i r fp x : inv h ws -> nth_error ws i = Some (r, fp, x) -> NoDup fp.
  Proof.
    intros [_ Hs] E. destruct (set_split _ _ _ E) as (p & q & -> & _ & _).
    rewrite map_app, concat_app in Hs. apply nodup_r in Hs. cbn in Hs.
    now apply nodup_l in Hs.
  Qed.
  Lemma inv_disj h ws i j r fp x r' fp' x' : inv h ws -> i <> j ->
    nth_error ws i = Some (r, fp, x) -> nth_error ws j = Some (r', fp', x') ->
    forall c, In c fp -> In c fp' -> False.
  Proof.
    intros [_ Hs] Hij Ei Ej c Hc Hc'.
    destruct (set_split _ _ _ Ei) as (p & q & -> & <- & _).
    rewrite map_app, concat_app in Hs. cbn in Hs.
    destruct (Nat.lt_ge_cases j (length p)).
    - rewrite nth_error_app1 in Ej by auto.
      assert (Hp : In c (concat (map s_fp p))).
      { apply in_concat. exists fp'. split; auto. apply nth_error_In in Ej. now apply (in_map s_fp) in Ej. }
      apply (nodup_disj _ _ c Hs); auto. apply in_app_iff. now left.
    - rewrite nth_error_app2 in Ej by auto. destruct (j - length p) as [|k] eqn:Ek; [lia|]. cbn in Ej.
      assert (Hp : In c (concat (map s_fp q))).
      { apply in_concat. exists fp'. split; auto. apply nth_error_In in Ej. now apply (in_map s_fp) in Ej. }
      apply nodup_r in Hs. now apply (nodup_disj _ _ c Hs).
  Qed.

  (** ** Variables *)
  Definition vars (ws : list slot) : list ref := map s_ref ws.
  Definition vals (ws : list slot) : @env T := map s_val ws.

  Lemma var_ok h ws i s : nth_error ws i = Some s -> var (h, vars ws) i = Ok (s_ref s).
  Proof. intro E. unfold var. cbn. unfold vars. now rewrite (map_nth_error _ _ _ E). Qed.
  Lemma vals_inv ws i x : nth_error (vals ws) i = Some x ->
    exists r fp, nth_error ws i = Some (r, fp, x).
  Proof.
    unfold vals. rewrite nth_error_map. destruct (nth_error ws i) as [[[r fp] y]|]; cbn; [|discriminate].
    intros [= <-]. eauto.
  Qed.

  Lemma evec_inv h ws i v : inv h ws -> evec (vals ws) i = Ok v ->
    exists r, nth_error ws i = Some (r, [r], WVec v) /\ nth_error h r = Some (OVec v) /\
              var (h, vars ws) i = Ok r.
  Proof.
    intros Hi. unfold evec. destruct (nth_error (vals ws) i) as [[]|] eqn:E; try discriminate.
    intros [= ->]. apply vals_inv in E as (r & fp & E). pose proof (inv_slot _ _ _ _ Hi E) as Ho.
    cbn in Ho. inversion Ho; subst. exists r. rewrite (var_ok _ _ _ _ E). auto.
  Qed.
  Lemma eang_inv h ws i (v : angle T) : inv h ws -> eang (vals ws) i = Ok v ->
    exists r, nth_error ws i = Some (r, [r], WAng v) /\ nth_error h r = Some (OAng v) /\
              var (h, vars ws) i = Ok r.
  Proof.
    intros Hi. unfold eang. destruct (nth_error (vals ws) i) as [[]|] eqn:E; try discriminate.
    intros [= ->]. apply vals_inv in E as (r & fp & E). pose proof (inv_slot _ _ _ _ Hi E) as Ho.
    cbn in Ho. inversion Ho; subst. exists r. rewrite (var_ok _ _ _ _ E). auto.
  Qed.
  Lemma esize_inv h ws i (v : size T) : inv h ws -> esize (vals ws) i = Ok v ->
    exists r, nth_error ws i = Some (r, [r], WSize v) /\ nth_error h r = Some (OSize v) /\
              var (h, vars ws) i = Ok r.
  Proof.
    intros Hi. unfold esize. destruct (nth_error (vals ws) i) as [[]|] eqn:E; try discriminate.
    intros [= ->]. apply vals_inv in E as (r & fp & E). pose proof (inv_slot _ _ _ _ Hi E) as Ho.
    cbn in Ho. inversion Ho; subst. exists r. rewrite (var_ok _ _ _ _ E). auto.
  Qed.
  Lemma eseg_inv h ws i x : inv h ws -> eseg (vals ws) i = Ok x ->
    exists r a b v w, x = mkSeg v w /\ nth_error ws i = Some (r, [r; a; b], WSeg x) /\
      nth_error h r = Some (OSeg a b) /\ nth_error h a = Some (OVec v) /\ nth_error h b = Some (OVec w) /\
      NoDup [r; a; b] /\ var (h, vars ws) i = Ok r.
  Proof.
    intros Hi. unfold eseg. destruct (nth_error (vals ws) i) as [[]|] eqn:E; try discriminate.
    intros [= ->]. apply vals_inv in E as (r & fp & E). pose proof (inv_slot _ _ _ _ Hi E) as Ho.
    pose proof (inv_nodup _ _ _ _ _ _ Hi E) as Hd.
    cbn in Ho. inversion Ho; subst. exists r, a, b, v, w. rewrite (var_ok _ _ _ _ E). repeat split; auto.
  Qed.
  Lemma erect_inv h ws i x : inv h ws -> erect (vals ws) i = Ok x ->
    exists r t s b v z, x = mkRect v z true /\ nth_error ws i = Some (r, [r; t; s], WRect v z) /\
      nth_error h r = Some (ORect t s b) /\ nth_error h t = Some (OVec v) /\ nth_error h s = Some (OSize z) /\
      NoDup [r; t; s] /\ var (h, vars ws) i = Ok r.
  Proof.
    intros Hi. unfold erect. destruct (nth_error (vals ws) i) as [[]|] eqn:E; try discriminate.
    intros [= <-]. apply vals_inv in E as (r & fp & E). pose proof (inv_slot _ _ _ _ Hi E) as Ho.
    pose proof (inv_nodup _ _ _ _ _ _ Hi E) as Hd.
    cbn in Ho. inversion Ho; subst. exists r, t, s0, b, tl, s. rewrite (var_ok _ _ _ _ E). repeat split; auto.
  Qed.
  Lemma etri_inv h ws i x : inv h ws -> etri (vals ws) i = Ok x ->
    exists r a b c u v w, x = mkTri u v w /\ nth_error ws i = Some (r, [r; a; b; c], WTri x) /\
      nth_error h r = Some (OTri a b c) /\ nth_error h a = Some (OVec u) /\ nth_error h b = Some (OVec v) /\
      nth_error h c = Some (OVec w) /\
      NoDup [r; a; b; c] /\ var (h, vars ws) i = Ok r.
  Proof.
    intros Hi. unfold etri. destruct (nth_error (vals ws) i) as [[]|] eqn:E; try discriminate.
    intros [= ->]. apply vals_inv in E as (r & fp & E). pose proof (inv_slot _ _ _ _ Hi E) as Ho.
    pose proof (inv_nodup _ _ _ _ _ _ Hi E) as Hd.
    cbn in Ho. inversion Ho; subst. exists r, a, b, c, u, v, w. rewrite (var_ok _ _ _ _ E). repeat split; auto.
  Qed.
  Lemma ecirc_inv h ws i x : inv h ws -> ecirc (vals ws) i = Ok x ->
    exists r c k v, x = mkCircle v k /\ nth_error ws i = Some (r, [r; c], WCirc x) /\
      nth_error h r = Some (OCirc c k) /\ nth_error h c = Some (OVec v) /\
      NoDup [r; c] /\ var (h, vars ws) i = Ok r.
  Proof.
    intros Hi. unfold ecirc. destruct (nth_error (vals ws) i) as [[]|] eqn:E; try discriminate.
    intros [= ->]. apply vals_inv in E as (r & fp & E). pose proof (inv_slot _ _ _ _ Hi E) as Ho.
    pose proof (inv_nodup _ _ _ _ _ _ Hi E) as Hd.
    cbn in Ho. inversion Ho; subst. exists r, c, x0, v. rewrite (var_ok _ _ _ _ E). repeat split; auto.
  Qed.
  Lemma eray_inv h ws i x : inv h ws -> eray (vals ws) i = Ok x ->
    exists r a b v d, x = mkRay v d /\ nth_error ws i = Some (r, [r; a; b], WRay x) /\
      nth_error h r = Some (ORay a b) /\ nth_error h a = Some (OVec v) /\ nth_error h b = Some (OAng d) /\
      NoDup [r; a; b] /\ var (h, vars ws) i = Ok r.
  Proof.
    intros Hi. unfold eray. destruct (nth_error (vals ws) i) as [[]|] eqn:E; try discriminate.
    intros [= ->]. apply vals_inv in E as (r & fp & E). pose proof (inv_slot _ _ _ _ Hi E) as Ho.
    pose proof (inv_nodup _ _ _ _ _ _ Hi E) as Hd.
    cbn in Ho. inversion Ho; subst. exists r, a, b, v, d. rewrite (var_ok _ _ _ _ E). repeat split; auto.
  Qed.
  Lemma esector_inv h ws i x : inv h ws -> esector (vals ws) i = Ok x ->
    exists r c k l a b v d f, x = mkSector v k l d f /\ nth_error ws i = Some (r, [r; c; a; b], WSector x) /\
      nth_error h r = Some (OSector c k l a b) /\ nth_error h c = Some (OVec v) /\
      nth_error h a = Some (OAng d) /\ nth_error h b = Some (OAng f) /\
      NoDup [r; c; a; b] /\ var (h, vars ws) i = Ok r.
  Proof.
    intros Hi. unfold esector. destruct (nth_error (vals ws) i) as [[]|] eqn:E; try discriminate.
    intros [= ->]. apply vals_inv in E as (r & fp & E). pose proof (inv_slot _ _ _ _ Hi E) as Ho.
    pose proof (inv_nodup _ _ _ _ _ _ Hi E) as Hd.
    cbn in Ho. inversion Ho; subst. repeat eexists; eauto. now rewrite (var_ok _ _ _ _ E).
  Qed.
  Lemma epoly_inv h ws i x : inv h ws -> epoly (vals ws) i = Ok x ->
    exists r l xs, nth_error ws i = Some (r, r :: l :: xs, WPoly x) /\
      nth_error h r = Some (OPoly l) /\ nth_error h l = Some (OList xs) /\
      Forall2 (fun x v => nth_error h x = Some (OVec v)) xs x /\
      var (h, vars ws) i = Ok r.
  Proof.
    intros Hi. unfold epoly. destruct (nth_error (vals ws) i) as [[]|] eqn:E; try discriminate.
    intros [= ->]. apply vals_inv in E as (r & fp & E). pose proof (inv_slot _ _ _ _ Hi E) as Ho.
    cbn in Ho. inversion Ho; subst. exists r, l, xs. rewrite (var_ok _ _ _ _ E). auto.
  Qed.

  (** ** Running a method *)
  Lemma mbind_ok {A B} (m : heap T -> res (A * heap T)) (f : A -> heap T -> res (B * heap T)) h a h' x :
    m h = Ok (a, h') -> f a h' = x -> mbind m f h = x.
  Proof. intros E F. unfold mbind. now rewrite E. Qed.
  Lemma get_vec_ok h r v : nth_error h r = Some (OVec v) -> get_vec r h = Ok (v, h).
  Proof. intro E. unfold get_vec, mbind, rd. now rewrite E. Qed.
  Lemma get_ang_ok h r a : nth_error h r = Some (OAng a) -> get_ang r h = Ok (a, h).
  Proof. intro E. unfold get_ang, mbind, rd. now rewrite E. Qed.
  Lemma get_size_ok h r a : nth_error h r = Some (OSize a) -> get_size r h = Ok (a, h).
  Proof. intro E. unfold get_size, mbind, rd. now rewrite E. Qed.
  Lemma get_seg_ok h r a b : nth_error h r = Some (OSeg a b) -> get_seg r h = Ok ((a, b), h).
  Proof. intro E. unfold get_seg, mbind, rd. now rewrite E. Qed.
  Lemma get_rect_ok h r a b c : nth_error h r = Some (ORect a b c) -> get_rect r h = Ok ((a, b, c), h).
  Proof. intro E. unfold get_rect, mbind, rd. now rewrite E. Qed.
  Lemma get_tri_ok h r a b c : nth_error h r = Some (OTri a b c) -> get_tri r h = Ok ((a, b, c), h).
  Proof. intro E. unfold get_tri, mbind, rd. now rewrite E. Qed.
  Lemma get_circ_ok h r a b : nth_error h r = Some (OCirc a b) -> get_circ r h = Ok ((a, b), h).
  Proof. intro E. unfold get_circ, mbind, rd. now rewrite E. Qed.
  Lemma get_ray_ok h r a b : nth_error h r = Some (ORay a b) -> get_ray r h = Ok ((a, b), h).
  Proof. intro E. unfold get_ray, mbind, rd. now rewrite E. Qed.
  Lemma get_sector_ok h r a b c d f : nth_error h r = Some (OSector a b c d f) ->
    get_sector r h = Ok ((a, b, c, d, f), h).
  Proof. intro E. unfold get_sector, mbind, rd. now rewrite E. Qed.
  Lemma get_list_ok h r a : nth_error h r = Some (OList a) -> get_list r h = Ok (a, h).
  Proof. intro E. unfold get_list, mbind, rd. now rewrite E. Qed.
  Lemma get_poly_ok h r a : nth_error h r = Some (OPoly a) -> get_poly r h = Ok (a, h).
  Proof. intro E. unfold get_poly, mbind, rd. now rewrite E. Qed.
  Lemma rect_value_ok h r t s b v z : nth_error h r = Some (ORect t s b) ->
    nth_error h t = Some (OVec v) -> nth_error h s = Some (OSize z) ->
    rect_value r h = Ok (mkRect v z b, h).
  Proof.
    intros E1 E2 E3. unfold rect_value. eapply mbind_ok; [apply get_rect_ok; eassumption|]. cbn.
    eapply mbind_ok; [apply get_vec_ok; eassumption|]. eapply mbind_ok; [apply get_size_ok; eassumption|].
    reflexivity.
  Qed.
  Lemma vec_copy_ok h r v : nth_error h r = Some (OVec v) ->
    obj_vec_copy r h = Ok (length h, h ++ [OVec (Vector2D_of_vec v)]).
  Proof. intro E. unfold obj_vec_copy. eapply mbind_ok; [apply get_vec_ok; eassumption|]. reflexivity. Qed.
  Lemma lift_ok {A} (x : res A) a h : x = Ok a -> lift x h = Ok (a, h).
  Proof. now intros ->. Qed.
  Lemma ang_copy_ok h r a b : nth_error h r = Some (OAng a) -> AngleDeg_of_angle a = Ok b ->
    obj_ang_copy r h = Ok (length h, h ++ [OAng b]).
  Proof.
    intros E F. unfold obj_ang_copy. eapply mbind_ok; [apply get_ang_ok; eassumption|].
    eapply mbind_ok; [apply lift_ok; eassumption|]. reflexivity.
  Qed.

  Lemma run_stmt_ok {A} h rs (m : heap T -> res (A * heap T)) a h' :
    m h = Ok (a, h') -> run_stmt (h, rs) m = Ok (h', rs).
  Proof. intro E. unfold run_stmt, bind. cbn. now rewrite E. Qed.
  Lemma bind_new_ok h rs (m : heap T -> res (ref * heap T)) r h' :
    m h = Ok (r, h') -> bind_new (h, rs) m = Ok (h', rs ++ [r]).
  Proof. intro E. unfold bind_new, bind. cbn. now rewrite E. Qed.

  Lemma done_new h h' ws r fp x (m : heap T -> res (ref * heap T)) :
    inv h ws -> m h = Ok (r, h') ->
    (forall c, c < length h -> nth_error h' c = nth_error h c) ->
    owns h' r fp x -> NoDup fp -> (forall c, In c fp -> length h <= c) ->
    exists h1 ws1, bind_new (h, vars ws) m = Ok (h1, vars ws1) /\ vals ws ++ [x] = vals ws1 /\ inv h1 ws1.
  Proof.
    intros Hi Hm Hf Ho Hn Hl. exists h', (ws ++ [(r, fp, x)]). split; [|split].
    - unfold vars. rewrite map_app. now apply bind_new_ok.
    - unfold vals. now rewrite map_app.
    - eapply inv_new; eauto.
  Qed.
  Lemma set_same {A} (l : list A) i x : nth_error l i = Some x -> list_set l i x = l.
  Proof. revert i; induction l as [|a l IH]; intros [|i]; cbn; try discriminate; [now intros [= ->]|].
    intro E. now rewrite IH. Qed.
  Lemma done_upd {A} h h' ws i r fp x fp' x' (m : heap T -> res (A * heap T)) a :
    inv h ws -> nth_error ws i = Some (r, fp, x) -> m h = Ok (a, h') ->
    (forall c, c < length h -> ~ In c fp -> nth_error h' c = nth_error h c) ->
    owns h' r fp' x' -> NoDup fp' -> (forall c, In c fp' -> In c fp \/ length h <= c) ->
    exists h1 ws1, run_stmt (h, vars ws) m = Ok (h1, vars ws1) /\
                   list_set (vals ws) i x' = vals ws1 /\ inv h1 ws1.
  Proof.
    intros Hi Hw Hm Hf Ho Hn Hl. exists h', (list_set ws i (r, fp', x')). split; [|split].
    - rewrite (run_stmt_ok _ _ _ _ _ Hm). do 2 f_equal. unfold vars. rewrite map_set.
      unfold s_ref at 2. cbn. symmetry. apply set_same. now apply (map_nth_error s_ref) in Hw.
    - unfold vals. now rewrite map_set.
    - eapply inv_upd; eauto.
  Qed.
End Obj.

Ltac len := repeat first [progress (rewrite app_length in * ) | progress (rewrite set_len in * )]; cbn [length] in *; lia.
Ltac look :=
  lazymatch goal with
  | |- nth_error (list_set ?l ?i ?a) ?i = _ => apply nth_set_eq; first [eapply nth_lt; solve [look] | len]
  | |- nth_error (list_set ?l ?i ?a) ?j = _ => rewrite nth_set_ne by (first [congruence | len]); look
  | |- nth_error (?l ++ [?a]) ?j = _ =>
      first [apply nth_app_new | apply nth_app_old; solve [look]]
  | _ => eassumption
  end.
Ltac go :=
  cbn beta iota zeta;
  lazymatch goal with
  | |- mbind _ _ _ = _ => eapply mbind_ok; [go | go]
  | |- get_vec _ _ = _ => apply get_vec_ok; look
  | |- get_ang _ _ = _ => apply get_ang_ok; look
  | |- get_size _ _ = _ => apply get_size_ok; look
  | |- get_seg _ _ = _ => apply get_seg_ok; look
  | |- get_rect _ _ = _ => apply get_rect_ok; look
  | |- get_tri _ _ = _ => apply get_tri_ok; look
  | |- get_circ _ _ = _ => apply get_circ_ok; look
  | |- get_ray _ _ = _ => apply get_ray_ok; look
  | |- get_sector _ _ = _ => apply get_sector_ok; look
  | |- get_list _ _ = _ => apply get_list_ok; look
  | |- get_poly _ _ = _ => apply get_poly_ok; look
  | |- rect_value _ _ = _ => eapply rect_value_ok; look
  | |- obj_vec_copy _ _ = _ => apply vec_copy_ok; look
  | |- obj_ang_copy _ _ = _ => eapply ang_copy_ok; look
  | |- lift _ _ = _ => first [apply lift_ok; eassumption | reflexivity]
  | |- new _ _ = _ => reflexivity
  | |- wr _ _ _ = _ => reflexivity
  | |- ret _ _ = _ => reflexivity
  | Q : ?x = _ |- (match ?x with _ => _ end) _ = _ => rewrite Q; go
  | |- ?f _ _ _ _ _ _ _ _ _ = _ => unfold f; go
  | |- ?f _ _ _ _ _ _ _ _ = _ => unfold f; go
  | |- ?f _ _ _ _ _ _ _ = _ => unfold f; go
  | |- ?f _ _ _ _ _ _ = _ => unfold f; go
  | |- ?f _ _ _ _ _ = _ => unfold f; go
  | |- ?f _ _ _ _ = _ => unfold f; go
  | |- ?f _ _ _ = _ => unfold f; go
  | |- ?f _ _ = _ => unfold f; go
  end.
Ltac ein :=
  repeat match goal with
  | Hi : inv ?h ?ws, H : evec (vals ?ws) _ = Ok _ |- _ =>
      apply (evec_inv _ _ _ _ Hi) in H as (? & ? & ? & ?)
  | Hi : inv ?h ?ws, H : eang (vals ?ws) _ = Ok _ |- _ =>
      apply (eang_inv _ _ _ _ Hi) in H as (? & ? & ? & ?)
  | Hi : inv ?h ?ws, H : esize (vals ?ws) _ = Ok _ |- _ =>
      apply (esize_inv _ _ _ _ Hi) in H as (? & ? & ? & ?)
  | Hi : inv ?h ?ws, H : eseg (vals ?ws) _ = Ok _ |- _ =>
      apply (eseg_inv _ _ _ _ Hi) in H as (? & ? & ? & ? & ? & -> & ? & ? & ? & ? & ? & ?)
  | Hi : inv ?h ?ws, H : erect (vals ?ws) _ = Ok _ |- _ =>
      apply (erect_inv _ _ _ _ Hi) in H as (? & ? & ? & ? & ? & ? & -> & ? & ? & ? & ? & ? & ?)
  | Hi : inv ?h ?ws, H : etri (vals ?ws) _ = Ok _ |- _ =>
      apply (etri_inv _ _ _ _ Hi) in H as (? & ? & ? & ? & ? & ? & ? & -> & ? & ? & ? & ? & ? & ? & ?)
  | Hi : inv ?h ?ws, H : ecirc (vals ?ws) _ = Ok _ |- _ =>
      apply (ecirc_inv _ _ _ _ Hi) in H as (? & ? & ? & ? & -> & ? & ? & ? & ? & ?)
  | Hi : inv ?h ?ws, H : eray (vals ?ws) _ = Ok _ |- _ =>
      apply (eray_inv _ _ _ _ Hi) in H as (? & ? & ? & ? & ? & -> & ? & ? & ? & ? & ? & ?)
  | Hi : inv ?h ?ws, H : esector (vals ?ws) _ = Ok _ |- _ =>
      apply (esector_inv _ _ _ _ Hi) in H as (? & ? & ? & ? & ? & ? & ? & ? & ? & -> & ? & ? & ? & ? & ? & ? & ?)
  | Hi : inv ?h ?ws, H : epoly (vals ?ws) _ = Ok _ |- _ =>
      apply (epoly_inv _ _ _ _ Hi) in H as (? & ? & ? & ? & ? & ? & ? & ?)
  end.
Ltac eb :=
  repeat match goal with
  | H : bind ?x _ = Ok _ |- _ => let E := fresh "E" in destruct x eqn:E; cbn [bind] in H; [|discriminate H]
  | H : fresh _ _ = Ok _ |- _ => injection H as <-
  | H : change _ _ _ = Ok _ |- _ => injection H as <-
  end.
Ltac vs := repeat match goal with H : var _ _ = Ok _ |- _ => rewrite H; clear H end; cbn [bind].
Ltac nd :=
  repeat match goal with H : NoDup (_ :: _) |- _ =>
    let A := fresh "Hnin" in inversion H as [|? ? A ?]; subst; clear H; cbn [In] in A end.
Ltac bounds :=
  repeat match goal with
  | H : nth_error ?h ?r = Some _ |- _ =>
      lazymatch goal with K : r < length h |- _ => fail | _ => pose proof (nth_lt _ _ _ H) end
  end.
Ltac fr := intros; repeat first [rewrite nth_set_ne by (first [congruence | len | cbn [In] in *; intuition congruence]) | rewrite nth_error_app1 by len]; reflexivity.
Ltac ndg := repeat constructor; cbn [In]; try (first [len | intuition (first [congruence|len])]).
Ltac fpl := cbn [In]; intros; first [intuition (first [congruence | len]) ].

Section Steps.
  Context {T : Type} `{Num T}.
  Implicit Types (h : heap T) (r : ref) (v w : vec T) (e : @env T).

  Ltac solve_new := eapply done_new; [eassumption | go | fr | econstructor; look | ndg | fpl].
  Ltac solve_upd := eapply done_upd; [eassumption | eassumption | go | fr | econstructor; look | ndg | fpl].

  Lemma rect_mut_flag u v (z : size T) b c :
    wrect (rect_mut_fun u (mkRect v z b)) = wrect (rect_mut_fun u (mkRect v z c)).
  Proof. destruct u; reflexivity. Qed.
  Lemma rect_mutp_flag u v (z : size T) b c p :
    wrect (rect_mutp_fun u (mkRect v z b) p) = wrect (rect_mutp_fun u (mkRect v z c) p).
  Proof. destruct u; reflexivity. Qed.
  Lemma rect_point_flag u v (z : size T) b c :
    rect_point_fun u (mkRect v z b) = rect_point_fun u (mkRect v z c).
  Proof. destruct u; reflexivity. Qed.

  (** [h'] is [h] with the cells [t] and [s] overwritten *)
  Definition wrote h h' (t s : ref) v (z : size T) :=
    nth_error h' t = Some (OVec v) /\ nth_error h' s = Some (OSize z) /\
    length h' = length h /\ forall c, c <> t -> c <> s -> nth_error h' c = nth_error h c.

  Lemma tail_ok h r t s b v (z : size T) o t' s' b' v' (z' : size T) :
    nth_error h r = Some (ORect t s b) -> nth_error h t = Some (OVec v) -> nth_error h s = Some (OSize z) ->
    nth_error h o = Some (ORect t' s' b') -> nth_error h t' = Some (OVec v') ->
    nth_error h s' = Some (OSize z') -> t <> s -> r <> t -> r <> s ->
    let R := intersect_tail (mkRect v z true) (mkRect v' z' true) in
    exists h', obj_intersect_tail r o h = Ok (tt, h') /\ wrote h h' t s (r_top_left R) (r_size R).
  Proof.
    intros E1 E2 E3 F1 F2 F3 N1 N2 N3 R. bounds.
    assert (K : forall h1 v1 z1 (x y l k : T), wrote h h1 t s v1 z1 ->
      exists h', mbind (assign_tl r x y) (fun _ => assign_sz r l k) h1 = Ok (tt, h') /\
                 wrote h h' t s (Vector2D_assign v1 x y) (Size2D_assign z1 l k)).
    { intros h1 v1 z1 x y l k (K1 & K2 & K3 & K4).
      assert (K5 : nth_error h1 r = Some (ORect t s b)) by (rewrite K4; auto).
      eexists. split; [go|]. bounds. repeat split; [look|look|len|].
      intros c C1 C2. rewrite !nth_set_ne by auto. now apply K4. }
    assert (W0 : wrote h h t s v z) by (repeat split; auto).
    unfold obj_intersect_tail, obj_rect_left, obj_rect_right, obj_rect_top, obj_rect_bottom.
    do 8 (erewrite mbind_ok; [|go|reflexivity]).
    subst R. unfold intersect_tail, Rect2D_right, Rect2D_bottom, Rect2D_left, Rect2D_top.
    cbn [r_top_left r_size].
    match goal with |- context[if ?c then _ else _] => destruct c end.
    - destruct (K h v z (num 0) (num 0) (num 0) (num 0) W0) as (h1 & G1 & W1).
      edestruct K as (h2 & G2 & W2); [exact W1|].
      exists h2. split; [|exact W2]. erewrite mbind_ok; [|exact G1|reflexivity]. exact G2.
    - edestruct K as (h2 & G2 & W2); [exact W0|].
      exists h2. split; [|exact W2]. exact G2.
  Qed.

  (** the common part of intersected and united *)
  Lemma combine_ok h ws i j r t s b v (z : size T) o t' s' b' v' (z' : size T) un :
    inv h ws ->
    nth_error ws i = Some (r, [r; t; s], WRect v z) -> nth_error h r = Some (ORect t s b) ->
    nth_error h t = Some (OVec v) -> nth_error h s = Some (OSize z) ->
    NoDup [r; t; s] ->
    nth_error ws j = Some (o, [o; t'; s'], WRect v' z') -> nth_error h o = Some (ORect t' s' b') ->
    nth_error h t' = Some (OVec v') -> nth_error h s' = Some (OSize z') ->
    let m := if un : bool then obj_rect_united r o else obj_rect_intersected r o in
    let x := mkRect v z true in let y := mkRect v' z' true in
    let f := if un then (if Nat.eqb i j then self_united x else Rect2D_united x y)
             else (if Nat.eqb i j then self_intersected x else Rect2D_intersected x y) in
    exists h' ws', run_stmt (h, vars ws) m = Ok (h', vars ws') /\
      list_set (vals ws) i (wrect f) = vals ws' /\ inv h' ws'.
  Proof.
    intros Hi Wi E1 E2 E3 Hd Wj F1 F2 F3 m x y f. bounds.
    set (h1 := list_set h o (ORect t' s' (Size2D_is_valid z'))).
    assert (Hi1 : inv h1 ws) by (eapply inv_flag; eauto).
    assert (G0 : obj_rect_is_valid o h = Ok (Size2D_is_valid z', h1)) by go.
    assert (E1' : exists b1, nth_error h1 r = Some (ORect t s b1)).
    { pose proof (inv_slot _ _ _ _ Hi1 Wi) as Ho. cbn in Ho. inversion Ho; subst. eauto. }
    destruct E1' as [b1 E1'].
    assert (E23 : nth_error h1 t = Some (OVec v) /\ nth_error h1 s = Some (OSize z)).
    { pose proof (inv_slot _ _ _ _ Hi1 Wi) as Ho. cbn in Ho. inversion Ho; subst. auto. }
    destruct E23 as [E2' E3'].
    assert (F123 : exists b2, nth_error h1 o = Some (ORect t' s' b2) /\ nth_error h1 t' = Some (OVec v')
                   /\ nth_error h1 s' = Some (OSize z')).
    { pose proof (inv_slot _ _ _ _ Hi1 Wj) as Ho. cbn in Ho. inversion Ho; subst. eauto. }
    destruct F123 as (b2 & F1' & F2' & F3').
    assert (D : i <> j -> forall c, In c [r; t; s] -> In c [o; t'; s'] -> False)
      by (intro; eapply inv_disj; eauto).
    assert (Heq : i = j -> o = r /\ t' = t /\ s' = s /\ v' = v /\ z' = z)
      by (clear - Wi Wj; intros Q; subst j; rewrite Wi in Wj; inversion Wj; auto).
    nd.
    (* after the zeroing *)
    assert (Z : exists h2 v2 z2, wrote h1 h2 t s v2 z2 /\ m h = obj_intersect_tail r o h2 /\
      f = if Nat.eqb i j then intersect_tail (mkRect v2 z2 true) (mkRect v2 z2 true)
          else intersect_tail (mkRect v2 z2 true) y).
    { assert (Hv : Nat.eqb i j = true -> Size2D_is_valid z' = Size2D_is_valid z)
        by (rewrite Nat.eqb_eq; intro Q; destruct (Heq Q) as (_ & _ & _ & _ & ->); reflexivity).
      assert (B1 : t < length h1) by (eapply nth_lt; eauto).
      assert (B2 : s < length h1) by (eapply nth_lt; eauto).
      subst m f x y. destruct un; unfold obj_rect_united, obj_rect_intersected;
        (rewrite (mbind_ok _ _ _ _ _ _ (get_rect_ok _ _ _ _ _ E1) eq_refl));
        (rewrite (mbind_ok _ _ _ _ _ _ G0 eq_refl));
        unfold self_united, self_intersected, Rect2D_united, Rect2D_intersected, Rect2D_is_valid;
        cbn [r_size r_top_left r_is_valid];
        (destruct (Nat.eqb i j); [rewrite <- Hv by reflexivity|]);
        destruct (Size2D_is_valid z') eqn:Ez; cbn [negb];
        (do 3 eexists; split; [|split; [first [reflexivity|erewrite mbind_ok; [reflexivity|go|erewrite mbind_ok; [reflexivity|go|reflexivity]]|erewrite mbind_ok; [reflexivity|go|reflexivity]]|reflexivity]]).
      all: (split; [look|split; [look|split; [len|fr]]]). }
    destruct Z as (h2 & v2 & z2 & (Z1 & Z2 & Z3 & Z4) & Z5 & ->).
    assert (R2 : nth_error h2 r = Some (ORect t s b1)) by (rewrite Z4; auto; intuition congruence).
    assert (W : exists h3, obj_intersect_tail r o h2 = Ok (tt, h3) /\
      let R := if Nat.eqb i j then intersect_tail (mkRect v2 z2 true) (mkRect v2 z2 true)
               else intersect_tail (mkRect v2 z2 true) y in
      wrote h2 h3 t s (r_top_left R) (r_size R)).
    { destruct (Nat.eqb_spec i j) as [Hij|Hij].
      - destruct (Heq Hij) as (-> & -> & -> & -> & ->). eapply tail_ok; eauto; intuition congruence.
      - specialize (D Hij). cbn [In] in D.
        eapply tail_ok; eauto; try (intuition congruence);
          (rewrite Z4; [eassumption| |]); intro; subst;
          first [apply (D t); tauto | apply (D s); tauto]. }
    destruct W as (h3 & G3 & W1 & W2 & W3 & W4).
    set (R := if Nat.eqb i j then _ else _) in *.
    assert (X : exists hx wx, run_stmt (h1, vars ws) (fun _ => Ok (tt, h3)) = Ok (hx, vars wx) /\
                list_set (vals ws) i (wrect R) = vals wx /\ inv hx wx).
    { eapply done_upd.
      - exact Hi1.
      - exact Wi.
      - reflexivity.
      - intros c Hc Hn. cbn [In] in Hn. rewrite W4, Z4; auto; intuition congruence.
      - econstructor; [rewrite W4; [exact R2|intuition congruence..]|exact W1|exact W2].
      - ndg.
      - auto. }
    destruct X as (hx & wx & X1 & X2 & X3). exists hx, wx. split; [|auto].
    rewrite <- X1. unfold run_stmt, bind. cbn. now rewrite Z5, G3.
  Qed.

  Lemma copy_rect_ok h ws r t s b v (z : size T) :
    inv h ws -> nth_error h r = Some (ORect t s b) -> nth_error h t = Some (OVec v) ->
    nth_error h s = Some (OSize z) -> r <> t -> r <> s ->
    exists h' ws', bind_new (h, vars ws) (obj_rect_copy r) = Ok (h', vars ws') /\
      vals ws ++ [wrect (Rect2D_of_rect (mkRect v z true))] = vals ws' /\ inv h' ws'.
  Proof.
    intros Hi E1 E2 E3 N1 N2. bounds.
    set (b' := Size2D_is_valid z). set (h1 := list_set h r (ORect t s b')).
    assert (Hi1 : inv h1 ws) by (eapply inv_flag; eauto).
    assert (L1 : length h1 = length h) by (unfold h1; apply set_len).
    assert (X : exists r' h', obj_rect_copy r h = Ok (r', h') /\
       exists hx wx, bind_new (h1, vars ws) (fun _ => Ok (r', h')) = Ok (hx, vars wx) /\
         vals ws ++ [wrect (Rect2D_of_rect (mkRect v z true))] = vals wx /\ inv hx wx).
    { do 2 eexists. split; [go|].
      eapply done_new; [exact Hi1|reflexivity| |econstructor; look|ndg|].
      - intros c Hc. rewrite L1 in Hc. rewrite nth_error_app1 by len. unfold h1.
        destruct (Nat.eq_dec r c) as [<-|Hrc].
        + rewrite !nth_set_eq by len. reflexivity.
        + rewrite !nth_set_ne by auto. rewrite !nth_error_app1 by len. reflexivity.
      - cbn [In]. intuition (subst; len). }
    destruct X as (r' & h' & G & hx & wx & X1 & X2). exists hx, wx. split; [|exact X2].
    rewrite <- X1. unfold bind_new, bind. cbn [fst]. now rewrite G.
  Qed.

  Lemma F2_mono h h' xs vs : (forall c o, nth_error h c = Some o -> nth_error h' c = Some o) ->
    Forall2 (fun x v => nth_error h x = Some (OVec v)) xs vs ->
    Forall2 (fun x v => nth_error h' x = Some (OVec v)) xs vs.
  Proof. intros Hm F. induction F; constructor; auto. Qed.
  Lemma mapM_evec h ws is vs : inv h ws -> mapM (evec (vals ws)) is = Ok vs ->
    exists rs, mapM (var (h, vars ws)) is = Ok rs /\
      Forall2 (fun x v => nth_error h x = Some (OVec v)) rs vs.
  Proof.
    intro Hi. revert vs. induction is as [|i is IH]; cbn; intros vs E.
    - injection E as <-. exists []. auto.
    - eb. injection E as <-. destruct (IH _ eq_refl) as (rs & -> & F). ein. vs.
      eexists. split; [reflexivity|]. constructor; auto.
  Qed.
  Lemma copy_all_ok rs : forall vs h, Forall2 (fun x v => nth_error h x = Some (OVec v)) rs vs ->
    exists xs ext, copy_all rs h = Ok (xs, h ++ ext) /\
      Forall2 (fun x v => nth_error (h ++ ext) x = Some (OVec v)) xs (map (@Vector2D_copy T) vs) /\
      NoDup xs /\ forall c, In c xs -> length h <= c < length (h ++ ext).
  Proof.
    induction rs as [|r rs IH]; intros vs h F; inversion F as [|a v b vs' Hr F' Ea Eb]; subst.
    - exists [], []. rewrite app_nil_r. cbn. repeat split; auto; try constructor; tauto.
    - destruct (IH vs' (h ++ [OVec (Vector2D_of_vec v)])) as (xs & ext & E & G & D & L).
      { clear - F'. induction F'; constructor; auto using nth_app_old. }
      exists (length h :: xs), ([OVec (Vector2D_of_vec v)] ++ ext). cbn [copy_all]. repeat split.
      + eapply mbind_ok; [go|]. eapply mbind_ok; [exact E|]. rewrite <- app_assoc. reflexivity.
      + cbn [map]. constructor; [|now rewrite app_assoc].
        rewrite app_assoc. apply nth_app_old, nth_app_new.
      + constructor; auto. intro C. apply L in C. rewrite app_length in C. cbn in C. lia.
      + destruct H0 as [<-|C]; [lia|]. apply L in C. rewrite app_length in C. lia.
      + destruct H0 as [<-|C]; [rewrite !app_length; cbn; lia|]. apply L in C.
        rewrite <- app_assoc in C. lia.
  Qed.

  Lemma step h ws c e' : inv h ws -> copying c = true -> expect (vals ws) c = Ok e' ->
    exists h' ws', exec (h, vars ws) c = Ok (h', vars ws') /\ e' = vals ws' /\ inv h' ws'.
  Proof.
    intros Hi Hc He. destruct c; try discriminate Hc; clear Hc; cbn [expect] in He; cbn [exec]; eb; ein; vs;
    lazymatch goal with |- context[obj_rect_united] => idtac
    | |- context[obj_rect_intersected] => idtac | _ => nd; bounds end.
    - solve_new.
    - solve_new.
    - solve_upd.
    - solve_upd.
    - solve_new.
    - solve_new.
    - solve_new.
    - solve_new.
    - solve_new.
    - solve_upd.
    - solve_upd.
    - solve_new.
    - solve_upd.
    - solve_new.
    - solve_new.
    - solve_upd.
    - solve_upd.
    - solve_upd.
    - solve_new.
    - solve_new.
    - solve_new.
    - solve_new.
    - solve_new.
    - solve_new.
    - unfold Rect2D_of_corners. destruct (two_corner_fields a a0) as [p q] eqn:Q. solve_new.
    - eapply copy_rect_ok; try eassumption; intuition congruence.
    - solve_new.
    - solve_new.
    - rewrite (rect_point_flag _ _ _ true x2). solve_new.
    - injection He as <-. eexists _, ws. split; [eapply run_stmt_ok; go|]. split; [reflexivity|].
      eapply inv_flag; eassumption.
    - rewrite (rect_mut_flag _ _ _ true x2). solve_upd.
    - rewrite (rect_mutp_flag _ _ _ true x3). solve_upd.
    - solve_upd.
    - unfold Rect2D_assign_corners. destruct (two_corner_fields a0 a1) as [p q] eqn:Q. solve_upd.
    - solve_upd.
    - solve_upd.
    - solve_upd.
    - eapply (combine_ok _ _ _ _ _ _ _ _ _ _ _ _ _ _ _ _ false); eassumption.
    - eapply (combine_ok _ _ _ _ _ _ _ _ _ _ _ _ _ _ _ _ true); eassumption.
    - solve_new.
    - solve_upd.
    - destruct u; solve_new.
    - solve_new.
    - solve_upd.
    - solve_new.
    - unfold Ray2D_of_point in *. eb. injection E1 as <-. solve_new.
    - unfold Ray2D_of_angle, AngleDeg_of_arg in *. eb. injection E1 as <-. solve_new.
    - unfold Ray2D_of_angle, AngleDeg_of_arg in *. eb. injection E0 as <-. solve_new.
    - solve_new.
    - solve_new.
    - unfold Sector2D_init, AngleDeg_of_arg in *. eb. injection E2 as <-. solve_new.
    - unfold Sector2D_init, AngleDeg_of_arg in *. eb. injection E3 as <-. solve_upd.
    - solve_new.
    - solve_new.
    - solve_new.
    - destruct (mapM_evec _ _ _ _ Hi E) as (rs & -> & F). cbn [bind].
      destruct rs as [|r0 rs0].
      { inversion F; subst.
        eapply done_new; [eassumption | eapply mbind_ok; [go|]; go | fr | | |].
        - eapply own_poly; [look|look|]. constructor; [look|constructor].
        - ndg.
        - cbn [In]. intros c C. len. }
      inversion F; subst. destruct (copy_all_ok _ _ _ F) as (xs & ext & G & F' & D & L).
      eapply done_new; [eassumption| | | | | ].
      + eapply mbind_ok; [exact G|]. go.
      + intros c Hc. rewrite <- !app_assoc. now rewrite nth_error_app1.
      + eapply own_poly; [look|look|]. eapply F2_mono; [|exact F']. intros c o Ho. now do 2 apply nth_app_old.
      + constructor; [cbn [In]; intros [C|C]; [|apply L in C]; len|].
        constructor; auto. intro C. apply L in C. len.
      + cbn [In]. intros c [<-|[<-|C]]; [len|len|]. apply L in C. len.
    - eapply done_upd; [eassumption | eassumption | go | fr | | | ].
      + eapply own_poly; [look|look|]. constructor; [look|constructor].
      + ndg.
      + cbn [In]. intros c [<-|[<-|[<-|[]]]]; [now left; left|right; len..].
  Qed.
End Steps.
