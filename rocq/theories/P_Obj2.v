(** * P_Obj2: programs over mutable objects, the theorems. *)
From Coq Require Import ZArith List Bool Arith Lia.
From Verif Require Import Base Types M_Angle M_Vector M_Line M_Ray M_Triangle
  M_Segment M_Circle M_Sector M_Rect M_Polygon M_Hull M_Heap M_Obj Spec3 P_Obj.
Import ListNotations.
Local Open Scope py_scope.
Local Open Scope num_scope.
Local Open Scope nat_scope.

Section Steps.
  Context {T : Type} `{Num T}.
  Implicit Types (h : heap T) (r : ref) (v w : vec T) (e : @env T).

  (** ** Exceptions *)
  Lemma raise_l {A B} (m : heap T -> res (A * heap T)) (f : A -> heap T -> res (B * heap T)) h :
    (exists y, m h = Raise y) -> exists y, mbind m f h = Raise y.
  Proof. intros [y E]. exists y. unfold mbind. now rewrite E. Qed.
  Lemma raise_r {A B} (m : heap T -> res (A * heap T)) (f : A -> heap T -> res (B * heap T)) h a h' :
    m h = Ok (a, h') -> (exists y, f a h' = Raise y) -> exists y, mbind m f h = Raise y.
  Proof. intros E [y F]. exists y. unfold mbind. now rewrite E. Qed.
  Lemma raise_new h rs (m : heap T -> res (ref * heap T)) :
    (exists y, m h = Raise y) -> exists y, bind_new (h, rs) m = Raise y.
  Proof. intros [y E]. exists y. unfold bind_new. cbn. now rewrite E. Qed.
  Lemma raise_stmt {A} h rs (m : heap T -> res (A * heap T)) :
    (exists y, m h = Raise y) -> exists y, run_stmt (h, rs) m = Raise y.
  Proof. intros [y E]. exists y. unfold run_stmt. cbn. now rewrite E. Qed.

  (** the cell at [r] is not of the class *)
  Definition bad h r (P : obj T -> bool) := exists o, nth_error h r = Some o /\ P o = false.
  Definition is_vec (o : obj T) := match o with OVec _ => true | _ => false end.
  Definition is_ang (o : obj T) := match o with OAng _ => true | _ => false end.
  Definition is_size (o : obj T) := match o with OSize _ => true | _ => false end.
  Definition is_seg (o : obj T) := match o with OSeg _ _ => true | _ => false end.
  Definition is_rect (o : obj T) := match o with ORect _ _ _ => true | _ => false end.
  Definition is_tri (o : obj T) := match o with OTri _ _ _ => true | _ => false end.
  Definition is_circ (o : obj T) := match o with OCirc _ _ => true | _ => false end.
  Definition is_ray (o : obj T) := match o with ORay _ _ => true | _ => false end.
  Definition is_sector (o : obj T) := match o with OSector _ _ _ _ _ => true | _ => false end.
  Definition is_poly (o : obj T) := match o with OPoly _ => true | _ => false end.
  Definition sort_of (x : ovalue T) (P : obj T -> bool) : Prop :=
    match x with
    | WVec _ => P = is_vec | WAng _ => P = is_ang | WSize _ => P = is_size | WSeg _ => P = is_seg
    | WRect _ _ => P = is_rect | WTri _ => P = is_tri | WCirc _ => P = is_circ | WRay _ => P = is_ray
    | WSector _ => P = is_sector | WPoly _ => P = is_poly
    end.

  Lemma bad_new h r P x : bad h r P -> bad (h ++ [x]) r P.
  Proof. intros (o & E & F). exists o. split; auto. now apply nth_app_old. Qed.
  Lemma get_vec_bad h r : bad h r is_vec -> exists y, get_vec r h = Raise y.
  Proof. intros (o & E & F). unfold get_vec, mbind, rd. rewrite E. destruct o; try discriminate; eexists; reflexivity. Qed.
  Lemma get_ang_bad h r : bad h r is_ang -> exists y, get_ang r h = Raise y.
  Proof. intros (o & E & F). unfold get_ang, mbind, rd. rewrite E. destruct o; try discriminate; eexists; reflexivity. Qed.
  Lemma get_size_bad h r : bad h r is_size -> exists y, get_size r h = Raise y.
  Proof. intros (o & E & F). unfold get_size, mbind, rd. rewrite E. destruct o; try discriminate; eexists; reflexivity. Qed.
  Lemma get_seg_bad h r : bad h r is_seg -> exists y, get_seg r h = Raise y.
  Proof. intros (o & E & F). unfold get_seg, mbind, rd. rewrite E. destruct o; try discriminate; eexists; reflexivity. Qed.
  Lemma get_rect_bad h r : bad h r is_rect -> exists y, get_rect r h = Raise y.
  Proof. intros (o & E & F). unfold get_rect, mbind, rd. rewrite E. destruct o; try discriminate; eexists; reflexivity. Qed.
  Lemma get_tri_bad h r : bad h r is_tri -> exists y, get_tri r h = Raise y.
  Proof. intros (o & E & F). unfold get_tri, mbind, rd. rewrite E. destruct o; try discriminate; eexists; reflexivity. Qed.
  Lemma get_circ_bad h r : bad h r is_circ -> exists y, get_circ r h = Raise y.
  Proof. intros (o & E & F). unfold get_circ, mbind, rd. rewrite E. destruct o; try discriminate; eexists; reflexivity. Qed.
  Lemma get_ray_bad h r : bad h r is_ray -> exists y, get_ray r h = Raise y.
  Proof. intros (o & E & F). unfold get_ray, mbind, rd. rewrite E. destruct o; try discriminate; eexists; reflexivity. Qed.
  Lemma get_sector_bad h r : bad h r is_sector -> exists y, get_sector r h = Raise y.
  Proof. intros (o & E & F). unfold get_sector, mbind, rd. rewrite E. destruct o; try discriminate; eexists; reflexivity. Qed.
  Lemma get_poly_bad h r : bad h r is_poly -> exists y, get_poly r h = Raise y.
  Proof. intros (o & E & F). unfold get_poly, mbind, rd. rewrite E. destruct o; try discriminate; eexists; reflexivity. Qed.

  Definition badvar h (ws : list (@slot T)) i P :=
    (exists y, var (h, vars ws) i = Raise y) \/ (exists r, var (h, vars ws) i = Ok r /\ bad h r P).
  Lemma badvar_intro h ws i P : inv h ws ->
    (forall x, nth_error (vals ws) i = Some x -> forall Q, sort_of x Q -> forall o, Q o = true -> P o = false) ->
    badvar h ws i P.
  Proof.
    intros Hi Hx. unfold badvar, var, vars. cbn. rewrite nth_error_map.
    destruct (nth_error ws i) as [[[r fp] x]|] eqn:E; cbn; [right|left; eauto].
    exists r. split; auto. pose proof (inv_slot _ _ _ _ Hi E) as Ho. cbn in Ho.
    assert (Ev : nth_error (vals ws) i = Some x) by now apply (map_nth_error s_val) in E.
    specialize (Hx _ Ev). inversion Ho; subst;
      (eexists; split; [eassumption|]; eapply Hx; [reflexivity|reflexivity]).
  Qed.
  Ltac badv f :=
    let Hi := fresh in let E := fresh in let Q := fresh in
    intros Hi; unfold f;
    match goal with |- context[nth_error ?a ?b] => destruct (nth_error a b) as [[]|] eqn:E end;
    try discriminate; intros _;
    (apply badvar_intro; [exact Hi|]); intros ? Q; rewrite E in Q; inversion Q; subst; clear Q;
    cbn; intros ? -> []; cbn; congruence.
  Lemma evec_bad h ws i y : inv h ws -> evec (vals ws) i = Raise y -> badvar h ws i is_vec.
  Proof. badv @evec. Qed.
  Lemma eang_bad h ws i y : inv h ws -> eang (vals ws) i = Raise y -> badvar h ws i is_ang.
  Proof. badv @eang. Qed.
  Lemma esize_bad h ws i y : inv h ws -> esize (vals ws) i = Raise y -> badvar h ws i is_size.
  Proof. badv @esize. Qed.
  Lemma eseg_bad h ws i y : inv h ws -> eseg (vals ws) i = Raise y -> badvar h ws i is_seg.
  Proof. badv @eseg. Qed.
  Lemma erect_bad h ws i y : inv h ws -> erect (vals ws) i = Raise y -> badvar h ws i is_rect.
  Proof. badv @erect. Qed.
  Lemma etri_bad h ws i y : inv h ws -> etri (vals ws) i = Raise y -> badvar h ws i is_tri.
  Proof. badv @etri. Qed.
  Lemma ecirc_bad h ws i y : inv h ws -> ecirc (vals ws) i = Raise y -> badvar h ws i is_circ.
  Proof. badv @ecirc. Qed.
  Lemma eray_bad h ws i y : inv h ws -> eray (vals ws) i = Raise y -> badvar h ws i is_ray.
  Proof. badv @eray. Qed.
  Lemma esector_bad h ws i y : inv h ws -> esector (vals ws) i = Raise y -> badvar h ws i is_sector.
  Proof. badv @esector. Qed.
  Lemma epoly_bad h ws i y : inv h ws -> epoly (vals ws) i = Raise y -> badvar h ws i is_poly.
  Proof. badv @epoly. Qed.

  Ltac ebad Hi H := first
    [ apply (evec_bad _ _ _ _ Hi) in H | apply (eang_bad _ _ _ _ Hi) in H | apply (esize_bad _ _ _ _ Hi) in H
    | apply (eseg_bad _ _ _ _ Hi) in H | apply (erect_bad _ _ _ _ Hi) in H | apply (etri_bad _ _ _ _ Hi) in H
    | apply (ecirc_bad _ _ _ _ Hi) in H | apply (eray_bad _ _ _ _ Hi) in H | apply (esector_bad _ _ _ _ Hi) in H
    | apply (epoly_bad _ _ _ _ Hi) in H ].
  Ltac rb :=
    repeat match goal with
    | H : bind ?x _ = Raise _ |- _ => let E := fresh "E" in destruct x eqn:E; cbn [bind] in H; [|clear H]
    | H : fresh _ _ = Raise _ |- _ => discriminate H
    | H : change _ _ _ = Raise _ |- _ => discriminate H
    | H : Ok _ = Raise _ |- _ => discriminate H
    end.
  Ltac badlook := repeat apply bad_new; assumption.
  Ltac gor :=
    cbn beta iota zeta;
    lazymatch goal with
    | |- exists y, mbind _ _ _ = Raise y =>
        first [apply raise_l; gor | eapply raise_r; [solve [go] | gor]]
    | |- exists y, get_vec _ _ = Raise y => apply get_vec_bad; badlook
    | |- exists y, get_ang _ _ = Raise y => apply get_ang_bad; badlook
    | |- exists y, get_size _ _ = Raise y => apply get_size_bad; badlook
    | |- exists y, get_seg _ _ = Raise y => apply get_seg_bad; badlook
    | |- exists y, get_rect _ _ = Raise y => apply get_rect_bad; badlook
    | |- exists y, get_tri _ _ = Raise y => apply get_tri_bad; badlook
    | |- exists y, get_circ _ _ = Raise y => apply get_circ_bad; badlook
    | |- exists y, get_ray _ _ = Raise y => apply get_ray_bad; badlook
    | |- exists y, get_sector _ _ = Raise y => apply get_sector_bad; badlook
    | |- exists y, get_poly _ _ = Raise y => apply get_poly_bad; badlook
    | Q : ?x = Raise _ |- exists y, lift ?x _ = Raise y => unfold lift; rewrite Q; eexists; reflexivity
    | |- exists y, new _ _ = _ => fail
    | |- exists y, wr _ _ _ = _ => fail
    | |- exists y, ret _ _ = _ => fail
    | |- exists y, lift _ _ = _ => fail
    | |- exists y, ?f _ _ _ _ _ _ _ _ _ = _ => unfold f; gor
    | |- exists y, ?f _ _ _ _ _ _ _ _ = _ => unfold f; gor
    | |- exists y, ?f _ _ _ _ _ _ _ = _ => unfold f; gor
    | |- exists y, ?f _ _ _ _ _ _ = _ => unfold f; gor
    | |- exists y, ?f _ _ _ _ _ = _ => unfold f; gor
    | |- exists y, ?f _ _ _ _ = _ => unfold f; gor
    | |- exists y, ?f _ _ _ = _ => unfold f; gor
    | |- exists y, ?f _ _ = _ => unfold f; gor
    end.
  Ltac rv :=
    repeat (cbn [bind]; match goal with
    | H : var _ _ = Raise _ |- exists y, bind (var _ _) _ = Raise y => rewrite H; eexists; reflexivity
    | H : var ?a ?b = Ok _ |- exists y, bind (var ?a ?b) _ = Raise y => rewrite H
    | |- exists y, bind (var ?a ?b) _ = Raise y =>
        let E := fresh "E" in destruct (var a b) eqn:E; [|eexists; reflexivity]
    end); cbn [bind].
  Ltac bads :=
    match goal with
    | Hi : inv ?h ?ws, H : _ = Raise _ |- _ => ebad Hi H; destruct H as [[? ?]|(? & ? & ?)]
    | _ => idtac
    end.

  Lemma mapM_bad h ws is x : inv h ws -> mapM (evec (vals ws)) is = Raise x ->
    (exists y, mapM (var (h, vars ws)) is = Raise y) \/
    (exists rs, mapM (var (h, vars ws)) is = Ok rs /\ forall ext, exists y, copy_all rs (h ++ ext) = Raise y).
  Proof.
    intros Hi. revert x. induction is as [|i is IH]; cbn; intros x E; [discriminate|].
    rb.
    - ein. rewrite H2. cbn [bind]. destruct (IH _ eq_refl) as [[y ->]|(rs & -> & C)]; [left; eexists; reflexivity|].
      right. eexists. split; [reflexivity|]. intro ext.
      eapply raise_r; [apply vec_copy_ok, nth_app_old; eassumption|]. apply raise_l.
      rewrite <- app_assoc. apply C.
    - apply (evec_bad _ _ _ _ Hi) in E0. destruct E0 as [[y ->]|(r & -> & B)]; [left; eexists; reflexivity|].
      cbn [bind]. destruct (mapM (var (h, vars ws)) is) as [rs|y]; [|left; eexists; reflexivity].
      right. eexists. split; [reflexivity|]. intro ext. apply raise_l. unfold obj_vec_copy. apply raise_l.
      apply get_vec_bad. destruct B as (o & B1 & B2). exists o. split; auto. now apply nth_app_old.
  Qed.

  Lemma step_raise h ws c x : inv h ws -> copying c = true -> expect (vals ws) c = Raise x ->
    exists y, exec (h, vars ws) c = Raise y.
  Proof.
    intros Hi Hc He. destruct c; try discriminate Hc; clear Hc; cbn [expect] in He; cbn [exec]; rb; ein; bads; rv;
    try (first [apply raise_new | apply raise_stmt]; gor).
    - unfold Ray2D_of_point in *. rb. apply raise_new. gor.
    - unfold Ray2D_of_angle, AngleDeg_of_arg in *. rb. apply raise_new. gor.
    - unfold Ray2D_of_angle, AngleDeg_of_arg in *. rb. apply raise_new. gor.
    - unfold Ray2D_dir in *. cbn in E0. apply raise_new. gor.
    - unfold Sector2D_init, AngleDeg_of_arg in *. rb; apply raise_new; gor.
    - destruct (AngleDeg_of_angle a0) eqn:Q; apply raise_new; gor.
    - unfold Sector2D_init, AngleDeg_of_arg in *. rb; apply raise_stmt; gor.
    - destruct (AngleDeg_of_angle a1) eqn:Q; apply raise_stmt; gor.
    - cbn in E0. apply raise_new. gor.
    - cbn in E0. apply raise_new. gor.
    - destruct (mapM_bad _ _ _ _ Hi E) as [[y ->]|(rs & -> & C)]; [eexists; reflexivity|]. cbn [bind].
      apply raise_new, raise_l. specialize (C []). rewrite app_nil_r in C.
      destruct rs; [destruct C as [y C]; discriminate C | exact C].
  Qed.

  (** ** Programs *)
  Lemma inv_reads h ws : inv h ws -> Forall2 (reads h) (vars ws) (vals ws).
  Proof.
    intros [Ho _]. induction ws as [|s ws IH]; cbn; constructor; inversion Ho; subst; auto.
    eapply owns_reads; eauto.
  Qed.
  Lemma inv_nil : inv (@nil (obj T)) [].
  Proof. split; constructor. Qed.

  Lemma run_inv cs : forallb (@copying T) cs = true -> forall h ws, inv h ws ->
    match expect_run (vals ws) cs, run (h, vars ws) cs with
    | Ok e, Ok (h', rs) => exists ws', rs = vars ws' /\ e = vals ws' /\ inv h' ws'
    | Raise _, Raise _ => True
    | _, _ => False
    end.
  Proof.
    induction cs as [|c cs IH]; cbn [forallb]; intros Hc h ws Hi; [cbn; eauto|].
    apply andb_prop in Hc as [Hc Hcs]. cbn [expect_run run].
    destruct (expect (vals ws) c) as [e|x] eqn:E; cbn [bind].
    - destruct (step _ _ _ _ Hi Hc E) as (h' & ws' & -> & -> & Hi'). cbn [bind]. now apply IH.
    - destruct (step_raise _ _ _ _ Hi Hc E) as [y ->]. cbn [bind]. exact I.
  Qed.
End Steps.

(** C105: every program of copying calls, whatever it does and in whatever
    order, either raises exactly when the value semantics does, or ends with
    every variable reading as the value semantics says. *)
Theorem C105_copying_programs T (N : Num T) (cs : list (call T)) :
  forallb copying cs = true ->
  match expect_run [] cs, run ([], []) cs with
  | Ok e, Ok (h, rs) => Forall2 (reads h) rs e
  | Raise _, Raise _ => True
  | _, _ => False
  end.
Proof.
  intro Hc. pose proof (run_inv cs Hc [] [] inv_nil) as R.
  change (expect_run (vals []) cs) with (expect_run [] cs) in R.
  change (run ([], vars []) cs) with (run ([], []) cs) in R.
  destruct (expect_run [] cs) as [e|x]; destruct (run ([], []) cs) as [[h rs]|y]; auto.
  destruct R as (ws & -> & -> & Hi). now apply inv_reads.
Qed.

(** ** C106: a call changes its receiver only *)
Lemma F2_fun T (h : heap T) xs vs ws :
  Forall2 (fun x v => nth_error h x = Some (OVec v)) xs vs ->
  Forall2 (fun x v => nth_error h x = Some (OVec v)) xs ws -> vs = ws.
Proof.
  intro F. revert ws. induction F as [|x v xs vs E F IH]; intros ws G; inversion G; subst; auto.
  f_equal; [congruence|auto].
Qed.
Lemma reads_fun T (h : heap T) r v w : reads h r v -> reads h r w -> v = w.
Proof.
  intros A B. destruct A; inversion B; subst; try congruence.
  all: repeat match goal with
       | H1 : nth_error ?k ?r = Some _, H2 : nth_error ?k ?r = Some _ |- _ =>
           rewrite H1 in H2; injection H2; intros; subst; clear H2
       end; try reflexivity.
  f_equal. eapply F2_fun; eauto.
Qed.

Lemma expect_keeps T (N : Num T) (e e' : @env T) c : expect e c = Ok e' ->
  forall j v, receiver c <> Some j -> nth_error e j = Some v -> nth_error e' j = Some v.
Proof.
  intro He.
  assert (Fr : forall x, Ok (e ++ [x]) = Ok e' ->
    forall j v, receiver c <> Some j -> nth_error e j = Some v -> nth_error e' j = Some v).
  { intros x [= <-]. intros. now apply nth_app_old. }
  assert (Ch : forall i x, receiver c = Some i -> Ok (list_set e i x) = Ok e' ->
    forall j v, receiver c <> Some j -> nth_error e j = Some v -> nth_error e' j = Some v).
  { intros i x Hr [= <-]. intros. rewrite nth_set_ne; auto. congruence. }
  destruct c; cbn [expect] in He; try discriminate He;
    repeat match type of He with bind ?x _ = Ok _ => destruct x; cbn [bind] in He; [|discriminate He] end;
    try (now apply (Fr _ He)); try (now apply (Ch _ _ eq_refl He)).
  injection He as <-. auto.
Qed.

Lemma exec_vars T (N : Num T) (h : heap T) rs c h' rs' :
  exec (h, rs) c = Ok (h', rs') -> exists new, rs' = rs ++ new.
Proof.
  assert (B : forall m, bind_new (h, rs) m = Ok (h', rs') -> exists new, rs' = rs ++ new).
  { intros m. unfold bind_new, bind. cbn. destruct (m h) as [[r k]|]; [|discriminate].
    intros [= _ <-]. eauto. }
  assert (S : forall A (m : heap T -> res (A * heap T)), run_stmt (h, rs) m = Ok (h', rs') ->
              exists new, rs' = rs ++ new).
  { intros A m. unfold run_stmt, bind. cbn. destruct (m h) as [[r k]|]; [|discriminate].
    intros [= _ <-]. exists []. now rewrite app_nil_r. }
  intro E. destruct c; cbn [exec] in E;
    repeat match type of E with bind ?x _ = Ok _ => destruct x; cbn [bind] in E; [|discriminate E] end;
    first [now apply (B _ E) | now apply (S _ _ E)].
Qed.

(** The variables of a program keep naming the same objects, and a copying
    call leaves every object except its receiver as it was. *)
Theorem C106_only_receiver_changes T (N : Num T) (cs : list (call T)) c h rs h' rs' :
  forallb copying cs = true -> copying c = true ->
  run ([], []) cs = Ok (h, rs) -> exec (h, rs) c = Ok (h', rs') ->
  (exists new, rs' = rs ++ new) /\
  forall j r v, nth_error rs j = Some r -> receiver c <> Some j ->
    reads h r v -> reads h' r v.
Proof.
  intros Hcs Hc Hr He.
  pose proof (run_inv cs Hcs [] [] inv_nil) as R.
  change (run ([], vars []) cs) with (run ([], []) cs) in R. rewrite Hr in R.
  destruct (expect_run (vals []) cs) as [e|]; [|contradiction].
  destruct R as (ws & -> & -> & Hi).
  destruct (expect (vals ws) c) as [e'|x] eqn:E.
  2: { destruct (step_raise _ _ _ _ Hi Hc E) as [y Ey]. congruence. }
  destruct (step _ _ _ _ Hi Hc E) as (h1 & ws1 & E1 & -> & Hi1). rewrite E1 in He.
  destruct (exec_vars _ _ _ _ _ _ _ E1) as [new Hn]. injection He as <- <-.
  pose proof (expect_keeps _ _ _ _ _ E) as Hk. split; [eauto|].
  intros j r v Hj Hrec Hv.
  assert (Hj1 : nth_error (vars ws1) j = Some r) by (rewrite Hn; now apply nth_app_old).
  unfold vars in Hj. rewrite nth_error_map in Hj.
  destruct (nth_error ws j) as [s|] eqn:Es; [|discriminate]. injection Hj as <-.
  pose proof (inv_slot _ _ _ _ Hi Es) as Ho. apply owns_reads in Ho.
  rewrite (reads_fun _ _ _ _ _ Hv Ho) in *. clear v Hv.
  assert (Ev : nth_error (vals ws1) j = Some (s_val s))
    by (apply Hk; auto; now apply (map_nth_error s_val) in Es).
  apply vals_inv in Ev as (r & fp & Ev).
  unfold vars in Hj1. rewrite (map_nth_error s_ref _ _ Ev) in Hj1. injection Hj1 as Hr1.
  pose proof (inv_slot _ _ _ _ Hi1 Ev) as Ho1. apply owns_reads in Ho1.
  unfold s_ref at 1 in Hr1. cbn in *. now rewrite <- Hr1.
Qed.

From Coq Require Import Reals.
From Verif Require Import NumR.
Section Witness.
  Local Open Scope R_scope.
  Let prog : list (call R) :=
    [NewVec 1 2; NewVec 3 4; NewSeg 0 1; CopySeg 2; MutVec (VSetX 9) 0; SwapSeg 2;
     MutVec2 VIAdd 1 0; OriginSeg 3].
  Example C105_copying_programs_nonvacuous :
    forallb copying prog = true /\
    expect_run [] prog =
      Ok [WVec (V 9 2); WVec (mkVec (3 + 9) (4 + 2) true);
          WSeg (mkSeg (V 3 4) (V 1 2)); WSeg (mkSeg (V 1 2) (V 3 4)); WVec (V 1 2)].
  Proof. split; reflexivity. Qed.
  Example C106_only_receiver_changes_nonvacuous :
    exists h rs h' rs', run ([], []) [NewVec 1 2; NewSeg 0 0; CopySeg 1] = Ok (h, rs) /\
      exec (h, rs) (SwapSeg 2) = Ok (h', rs') /\
      nth_error rs 1 = Some 3%nat /\ receiver (SwapSeg 2 : call R) <> Some 1%nat /\
      reads h 3%nat (WSeg (mkSeg (V 1 2) (V 1 2))).
  Proof.
    do 4 eexists. split; [reflexivity|]. split; [reflexivity|]. split; [reflexivity|]. split; [discriminate|].
    econstructor; reflexivity.
  Qed.
End Witness.
