(** * P_MatProg: programs over Matrix2D variables refine programs over plane
    transformations (C121) *)
From Coq Require Import ZArith List Bool String Reals Lra Lia Psatz.
From Verif Require Import Base Types NumR R_Tac Spec Abs M_Angle M_Vector M_Matrix M_Heap L_Angle L_Trig P_Angle P_Vector P_Matrix.
Import ListNotations.
Local Open Scope R_scope.

(** ** Specification: objects are maps of the plane *)
Definition translation (a b : R) (p : point) : point := (px p + a, py p + b).
Definition scaling (a b : R) (p : point) : point := (a * px p, b * py p).
Definition rotation (deg : R) (p : point) : point :=
  (px p * cos (rad deg) - py p * sin (rad deg), px p * sin (rad deg) + py p * cos (rad deg)).
(** the map with the given coefficients: (x, y) to (a x + b y + e, c x + d y + f) *)
Definition linear_map (a b c d e f : R) (p : point) : point := (a * px p + b * py p + e, c * px p + d * py p + f).
Definition coefficients (m : matrix R) : point -> point := linear_map (m11 m) (m12 m) (m21 m) (m22 m) (mdx m) (mdy m).
(** [g] undoes [f], or [f] glues points together and [g] does nothing *)
Definition inverse_or_nothing (f g : point -> point) : Prop :=
  (forall p, g (f p) = p /\ f (g p) = p) \/ ((exists p q, p <> q /\ f p = f q) /\ forall p, g p = p).

(** variables name objects, several names may share one object; [s_out] is what
    the program printed, latest first *)
Record sstate := mkS { s_env : nat -> option nat; s_next : nat; s_obj : nat -> point -> point; s_out : list point }.
Definition upd {A} (f : nat -> A) (x : nat) (a : A) (y : nat) : A := if Nat.eqb y x then a else f y.
(** name [x] gets a new object *)
Definition fresh (s : sstate) (x : nat) (f : point -> point) : sstate :=
  mkS (upd (s_env s) x (Some (s_next s))) (S (s_next s)) (upd (s_obj s) (s_next s) f) (s_out s).
(** name [x] is bound to object [r] *)
Definition rebind (s : sstate) (x r : nat) : sstate := mkS (upd (s_env s) x (Some r)) (s_next s) (s_obj s) (s_out s).
(** object [r] becomes [f], whatever names it has *)
Definition become (s : sstate) (r : nat) (f : point -> point) : sstate := mkS (s_env s) (s_next s) (upd (s_obj s) r f) (s_out s).

Inductive sstep : sstate -> mcmd R -> sstate -> Prop :=
| SNew s x m : sstep s (MNew x m) (fresh s x (coefficients m))
| STranslation s x a b : sstep s (MTranslation x a b) (fresh s x (translation a b))
| SScaling s x a b : sstep s (MScaling x a b) (fresh s x (scaling a b))
| SRotation s x a : sstep s (MRotation x a) (fresh s x (rotation (a_degree a)))
| SInverted s x y r g : s_env s y = Some r -> inverse_or_nothing (s_obj s r) g -> sstep s (MInverted x y) (fresh s x g)
| SAlias s x y r : s_env s y = Some r -> sstep s (MAlias x y) (rebind s x r)
| SMulTo s x y z r q : s_env s y = Some r -> s_env s z = Some q ->
    (* y becomes "z, then y", and x another name of y *)
    sstep s (MMulTo x y z) (rebind (become s r (fun p => s_obj s r (s_obj s q p))) x r)
| SIMul s x y r q : s_env s x = Some r -> s_env s y = Some q ->
    sstep s (MIMul x y) (become s r (fun p => s_obj s r (s_obj s q p)))
| STranslate s x a b r : s_env s x = Some r -> sstep s (MTranslate x a b) (become s r (fun p => translation a b (s_obj s r p)))
| SScale s x a b r : s_env s x = Some r -> sstep s (MScale x a b) (become s r (fun p => scaling a b (s_obj s r p)))
| SRotate s x a r : s_env s x = Some r -> sstep s (MRotate x a) (become s r (fun p => rotation (a_degree a) (s_obj s r p)))
| SReset s x r : s_env s x = Some r -> sstep s (MReset x) (become s r (fun p => p))
| SAssign s x m r : s_env s x = Some r -> sstep s (MAssign x m) (become s r (coefficients m))
| SPrint s x v r : s_env s x = Some r ->
    sstep s (MPrint x v) (mkS (s_env s) (s_next s) (s_obj s) (s_obj s r (vx v, vy v) :: s_out s)).
Inductive sruns : sstate -> list (mcmd R) -> sstate -> Prop :=
| SDone s : sruns s [] s
| SMore s c cs s1 s2 : sstep s c s1 -> sruns s1 cs s2 -> sruns s (c :: cs) s2.
Definition sstart : sstate := mkS (fun _ => None) 0%nat (fun _ p => p) [].

(** ** Simulation *)
Definition sim (st : mstate R) (s : sstate) : Prop :=
  (forall x, ms_env st x = s_env s x) /\ ms_next st = s_next s /\
  (forall r p, affine (ms_heap st r) p = s_obj s r p) /\ map pt (ms_out st) = s_out s.

Lemma pt_eq (p q : point) : px p = px q -> py p = py q -> p = q.
Proof. destruct p, q; cbn. now intros -> ->. Qed.
Lemma affine_imul (a b : matrix R) p : affine (Matrix2D_imul a b) p = affine a (affine b p).
Proof. apply pt_eq; unfold affine, Matrix2D_imul, px, py; rnum; cbn [m11 m12 m21 m22 mdx mdy fst snd]; ring. Qed.
Lemma affine_id p : affine (@Matrix2D_identity R NumR) p = p.
Proof. apply pt_eq; unfold affine, Matrix2D_identity, px, py; rnum; cbn [m11 m12 m21 m22 mdx mdy fst snd]; ring. Qed.
Lemma affine_tr m x y p : affine (Matrix2D_translate m x y) p = translation x y (affine m p).
Proof. apply pt_eq; unfold affine, translation, Matrix2D_translate, px, py; rnum; cbn [m11 m12 m21 m22 mdx mdy fst snd]; ring. Qed.
Lemma affine_sc m x y p : affine (Matrix2D_scale m x y) p = scaling x y (affine m p).
Proof. apply pt_eq; unfold affine, scaling, Matrix2D_scale, px, py; rnum; cbn [m11 m12 m21 m22 mdx mdy fst snd]; ring. Qed.
Lemma affine_mk_tr x y p : affine (make_translation x y) p = translation x y p.
Proof. apply pt_eq; unfold affine, translation, make_translation, px, py; rnum; cbn [m11 m12 m21 m22 mdx mdy fst snd]; ring. Qed.
Lemma affine_mk_sc x y p : affine (make_scaling x y) p = scaling x y p.
Proof. apply pt_eq; unfold affine, scaling, make_scaling, px, py; rnum; cbn [m11 m12 m21 m22 mdx mdy fst snd]; ring. Qed.
Lemma rotate_ok m a : exists m', Matrix2D_rotate m a = Ok m' /\ forall p, affine m' p = rotation (a_degree a) (affine m p).
Proof.
  unfold Matrix2D_rotate. rewrite sinA, cosA. cbn [bind]. eexists. split; [reflexivity|]. intros p.
  apply pt_eq; unfold affine, rotation, px, py; rnum; cbn [m11 m12 m21 m22 mdx mdy fst snd]; ring.
Qed.
Lemma mk_rotation_ok a : exists m', make_rotation a = Ok m' /\ forall p, affine m' p = rotation (a_degree a) p.
Proof.
  unfold make_rotation. rewrite sinA, cosA. cbn [bind]. eexists. split; [reflexivity|]. intros p.
  apply pt_eq; unfold affine, rotation, px, py; rnum; cbn [m11 m12 m21 m22 mdx mdy fst snd]; ring.
Qed.
Lemma singular_glues (a : matrix R) : Matrix2D_det a = 0 -> exists p q, p <> q /\ affine a p = affine a q.
Proof.
  unfold Matrix2D_det. rnum. intros D.
  destruct (Req_dec (m11 a) 0) as [E1|N1]; [destruct (Req_dec (m12 a) 0) as [E2|N2]|].
  - destruct (Req_dec (m21 a) 0) as [E3|N3].
    + exists (1, 0), (0, 0). split; [intros [= Q]; lra|]. unfold affine, px, py. cbn [fst snd]. rewrite E1, E3. f_equal; ring.
    + exists (m22 a, - m21 a), (0, 0). split; [intros [= Q1 Q2]; lra|]. unfold affine, px, py. cbn [fst snd]. rewrite E1, E2. f_equal; ring.
  - exists (m12 a, - m11 a), (0, 0). split; [intros [= Q1 Q2]; lra|]. unfold affine, px, py. cbn [fst snd]. f_equal; nra.
  - exists (m12 a, - m11 a), (0, 0). split; [intros [= Q1 Q2]; lra|]. unfold affine, px, py. cbn [fst snd]. f_equal; nra.
Qed.
Lemma inverted_ok (a : matrix R) : exists b, Matrix2D_inverted a = Ok b /\ inverse_or_nothing (affine a) (affine b).
Proof.
  destruct (C80_inverted_R a) as (A & B & _). destruct (Req_dec (Matrix2D_det a) 0) as [E|N].
  - exists Matrix2D_identity. split; [now apply B|]. right. split; [now apply singular_glues|apply affine_id].
  - destruct (A N) as (b & Eb & _ & I1 & I2 & _). exists b. split; [exact Eb|]. left. intros p.
    rewrite <- !affine_imul, I1, I2. split; apply affine_id.
Qed.
Lemma inverse_unique f g g' : inverse_or_nothing f g -> inverse_or_nothing f g' -> forall p, g p = g' p.
Proof.
  intros [A|[(x & y & N & E) A]] [B|[(x' & y' & N' & E') B]] p.
  - rewrite <- (proj2 (B p)) at 1. apply (A (g' p)).
  - exfalso. apply N'. rewrite <- (proj1 (A x')), <- (proj1 (A y')). now rewrite E'.
  - exfalso. apply N. rewrite <- (proj1 (B x)), <- (proj1 (B y)). now rewrite E.
  - now rewrite A, B.
Qed.
Lemma inverse_ext f f' g : (forall p, f p = f' p) -> inverse_or_nothing f g -> inverse_or_nothing f' g.
Proof.
  intros E [A|[(x & y & N & Q) A]]; [left|right].
  - intros p. rewrite <- !E. apply A.
  - split; [|exact A]. exists x, y. now rewrite <- !E.
Qed.

Lemma sim_fresh st s x m f : sim st s -> (forall p, affine m p = f p) -> sim (malloc st x m) (fresh s x f).
Proof.
  intros (A & B & C & D) E. unfold sim, malloc, fresh. cbn. repeat split; [|now f_equal| |exact D].
  - intros y. unfold upd. rewrite B. destruct (Nat.eqb y x); [reflexivity|apply A].
  - intros r p. unfold put, upd. rewrite B. destruct (Nat.eqb r (s_next s)); [apply E|apply C].
Qed.
Lemma sim_become st s r m f : sim st s -> (forall p, affine m p = f p) -> sim (mwith st (put (ms_heap st) r m)) (become s r f).
Proof.
  intros (A & B & C & D) E. unfold sim, mwith, become. cbn. repeat split; [exact A|exact B| |exact D].
  intros q p. unfold put, upd. destruct (Nat.eqb q r); [apply E|apply C].
Qed.
Lemma sim_rebind st s x r h : sim (mwith st h) s -> sim (mbind_var st x r h) (rebind s x r).
Proof.
  intros (A & B & C & D). unfold sim, mbind_var, rebind in *. cbn in *. repeat split; [|exact B|exact C|exact D].
  intros y. unfold upd. destruct (Nat.eqb y x); [reflexivity|apply A].
Qed.
(** binding a name to the object it already names changes nothing *)
Lemma sim_rebind_same st s x r h : ms_env st x = Some r -> sim (mwith st h) s -> sim (mbind_var st x r h) s.
Proof.
  intros Ex (A & B & C & D). unfold sim, mbind_var in *. cbn in *. repeat split; [|exact B|exact C|exact D].
  intros y. destruct (Nat.eqb_spec y x) as [->|N]; [now rewrite <- A|apply A].
Qed.
Lemma mget_ok (st : mstate R) x r : ms_env st x = Some r -> mget st x = Ok r.
Proof. unfold mget. now intros ->. Qed.
Lemma mget_inv (st : mstate R) x r : mget st x = Ok r -> ms_env st x = Some r.
Proof. unfold mget. destruct (ms_env st x); [now intros [= ->]|discriminate]. Qed.
Lemma mul_sim st s r q : sim st s -> sim (mwith st (put (ms_heap st) r (Matrix2D_imul (ms_heap st r) (ms_heap st q)))) (become s r (fun p => s_obj s r (s_obj s q p))).
Proof. intros S. apply sim_become; [exact S|]. intros p. rewrite affine_imul. destruct S as (_ & _ & C & _). now rewrite !C. Qed.

Lemma step_back st s c s' : sim st s -> sstep s c s' -> exists st', mexec st c = Ok st' /\ sim st' s'.
Proof.
  intros S E. pose proof S as (A & B & C & D).
  destruct E as [s x m|s x a b|s x a b|s x a|s x y r g Ey I|s x y r Ey|s x y z r q Ey Ez|s x y r q Ex Ey|s x a b r Ex|s x a b r Ex|s x a r Ex|s x r Ex|s x m r Ex|s x v r Ex]; cbn [mexec].
  - eexists; split; [reflexivity|]. now apply sim_fresh.
  - eexists; split; [reflexivity|]. apply sim_fresh; [exact S|apply affine_mk_tr].
  - eexists; split; [reflexivity|]. apply sim_fresh; [exact S|apply affine_mk_sc].
  - destruct (mk_rotation_ok a) as (m & Em & Hm). rewrite Em. cbn [bind]. eexists; split; [reflexivity|]. now apply sim_fresh.
  - rewrite <- A in Ey. rewrite (mget_ok _ _ _ Ey). cbn [bind]. destruct (inverted_ok (ms_heap st r)) as (b & Eb & Hb). rewrite Eb. cbn [bind].
    eexists; split; [reflexivity|]. apply sim_fresh; [exact S|]. apply (inverse_unique (s_obj s r)); [|exact I]. now apply (inverse_ext (affine (ms_heap st r))).
  - rewrite <- A in Ey. rewrite (mget_ok _ _ _ Ey). cbn [bind]. eexists; split; [reflexivity|]. apply sim_rebind. exact S.
  - rewrite <- A in Ey, Ez. rewrite (mget_ok _ _ _ Ey), (mget_ok _ _ _ Ez). cbn [bind]. eexists; split; [reflexivity|]. apply sim_rebind. now apply mul_sim.
  - rewrite <- A in Ex, Ey. rewrite (mget_ok _ _ _ Ex), (mget_ok _ _ _ Ey). cbn [bind]. eexists; split; [reflexivity|]. apply sim_rebind_same; [exact Ex|]. now apply mul_sim.
  - rewrite <- A in Ex. rewrite (mget_ok _ _ _ Ex). cbn [bind]. eexists; split; [reflexivity|]. apply sim_become; [exact S|]. intros p. now rewrite affine_tr, C.
  - rewrite <- A in Ex. rewrite (mget_ok _ _ _ Ex). cbn [bind]. eexists; split; [reflexivity|]. apply sim_become; [exact S|]. intros p. now rewrite affine_sc, C.
  - rewrite <- A in Ex. rewrite (mget_ok _ _ _ Ex). cbn [bind]. unfold rotate_obj. destruct (rotate_ok (ms_heap st r) a) as (m & Em & Hm). rewrite Em. cbn [bind].
    eexists; split; [reflexivity|]. apply sim_become; [exact S|]. intros p. now rewrite Hm, C.
  - rewrite <- A in Ex. rewrite (mget_ok _ _ _ Ex). cbn [bind]. eexists; split; [reflexivity|]. apply sim_become; [exact S|]. apply affine_id.
  - rewrite <- A in Ex. rewrite (mget_ok _ _ _ Ex). cbn [bind]. eexists; split; [reflexivity|]. now apply sim_become.
  - rewrite <- A in Ex. rewrite (mget_ok _ _ _ Ex). cbn [bind]. eexists; split; [reflexivity|]. unfold sim. cbn. repeat split; [exact A|exact B|exact C|].
    rewrite D. f_equal. unfold mul_vec_obj. rewrite <- C. rewrite transform_R. reflexivity.
Qed.
(** a statement that returns has a specified effect: all its names are bound *)
Lemma step_forth st s c st' : sim st s -> mexec st c = Ok st' -> exists s', sstep s c s'.
Proof.
  intros S. pose proof S as (A & B & C & D).
  assert (G : forall x (X : Type) (k : ref -> res X) (y : X), (r <- mget st x ;; k r) = Ok y -> exists r, s_env s x = Some r /\ k r = Ok y).
  { intros x X k y. destruct (mget st x) as [r|] eqn:Er; [|discriminate]. cbn. intros E. exists r. split; [|exact E]. rewrite <- A. now apply mget_inv. }
  destruct c; cbn [mexec]; intros E; try (eexists; constructor; fail).
  - destruct (G _ _ _ _ E) as (r & Er & _). destruct (inverted_ok (ms_heap st r)) as (b & _ & Hb). eexists. eapply SInverted; [exact Er|]. apply (inverse_ext (affine (ms_heap st r))); [apply C|exact Hb].
  - destruct (G _ _ _ _ E) as (r & Er & _). eexists. econstructor; exact Er.
  - destruct (G _ _ _ _ E) as (r & Er & E2). destruct (G _ _ _ _ E2) as (q & Eq & _). eexists. econstructor; eassumption.
  - destruct (G _ _ _ _ E) as (r & Er & E2). destruct (G _ _ _ _ E2) as (q & Eq & _). eexists. econstructor; eassumption.
  - destruct (G _ _ _ _ E) as (r & Er & _). eexists. econstructor; exact Er.
  - destruct (G _ _ _ _ E) as (r & Er & _). eexists. econstructor; exact Er.
  - destruct (G _ _ _ _ E) as (r & Er & _). eexists. econstructor; exact Er.
  - destruct (G _ _ _ _ E) as (r & Er & _). eexists. econstructor; exact Er.
  - destruct (G _ _ _ _ E) as (r & Er & _). eexists. econstructor; exact Er.
  - destruct (G _ _ _ _ E) as (r & Er & _). eexists. econstructor; exact Er.
Qed.

Lemma runs_back cs : forall st s s', sim st s -> sruns s cs s' -> exists st', mrun st cs = Ok st' /\ sim st' s'.
Proof.
  induction cs as [|c cs IH]; intros st s s' S E; inversion E as [|? ? ? s1 ? E1 E2]; subst; cbn [mrun]; [eauto|].
  destruct (step_back _ _ _ _ S E1) as (st1 & X & S1). rewrite X. cbn [bind]. now apply (IH _ s1).
Qed.
Lemma runs_forth cs : forall st s st', sim st s -> mrun st cs = Ok st' -> exists s', sruns s cs s' /\ sim st' s'.
Proof.
  induction cs as [|c cs IH]; intros st s st' S; cbn [mrun].
  - intros [= <-]. exists s. split; [constructor|exact S].
  - destruct (mexec st c) as [st1|] eqn:X; [|discriminate]. cbn [bind]. intros E.
    destruct (step_forth _ _ _ _ S X) as (s1 & E1). destruct (step_back _ _ _ _ S E1) as (st2 & X2 & S1).
    rewrite X in X2. injection X2 as <-. destruct (IH _ _ _ S1 E) as (s' & R & S'). exists s'. split; [econstructor; eassumption|exact S'].
Qed.
Lemma sim_start : sim mstart sstart.
Proof. unfold sim. cbn. repeat split. intros _ p. apply affine_id. Qed.

(** ** C121 *)
Theorem C121_programs_R : forall (cs : list (mcmd R)) (out : list point),
  (exists st, mrun mstart cs = Ok st /\ map pt (ms_out st) = out) <-> (exists s, sruns sstart cs s /\ s_out s = out).
Proof.
  intros cs out. split.
  - intros (st & E & <-). destruct (runs_forth _ _ _ _ sim_start E) as (s & R & (_ & _ & _ & D)). eauto.
  - intros (s & R & <-). destruct (runs_back _ _ _ _ sim_start R) as (st & E & (_ & _ & _ & D)). eauto.
Qed.
(** a program stops with an error exactly when the specification has no run, i.e.
    when it uses a name before it is bound *)
Theorem C121_stops_R : forall cs : list (mcmd R),
  (exists e, mrun mstart cs = Raise e) <-> ~ exists s, sruns sstart cs s.
Proof.
  intros cs. destruct (mrun mstart cs) as [st|e] eqn:E.
  - split; [intros [e H]; discriminate|]. intros N. exfalso. apply N. destruct (runs_forth _ _ _ _ sim_start E) as (s & R & _). eauto.
  - split; [|eauto]. intros _ (s & R). destruct (runs_back _ _ _ _ sim_start R) as (st & E' & _). congruence.
Qed.
(** b = a; c = a * t; print(b * v): the alias b sees the product *)
Example C121_nonvacuous : exists s,
  sruns sstart [MScaling 0 2 2; MAlias 1 0; MTranslation 2 3 4; MMulTo 3 0 2; MInverted 4 1; MPrint 1 (mkVec 1 1 true)] s /\ s_out s = [(8, 10)].
Proof.
  set (f := (upd (upd (upd (fun _ p => p) 0%nat (scaling 2 2)) 1%nat (translation 3 4)) 0%nat (fun p => scaling 2 2 (translation 3 4 p)))).
  eexists. split.
  - eapply SMore; [apply SScaling|]. eapply SMore; [eapply SAlias; reflexivity|]. eapply SMore; [apply STranslation|].
    eapply SMore; [eapply SMulTo; reflexivity|].
    eapply SMore; [eapply (SInverted _ _ _ 0%nat (fun p => (px p / 2 - 3, py p / 2 - 4)))|]; [reflexivity| |].
    + left. intros [x y]. unfold become, rebind, fresh, upd, scaling, translation, px, py. cbn. split; f_equal; field.
    + eapply SMore; [eapply SPrint; reflexivity|]. apply SDone.
  - cbn. unfold upd, scaling, translation, px, py. cbn. do 2 f_equal; ring.
Qed.
