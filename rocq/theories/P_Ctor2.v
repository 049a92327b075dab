(** * P_Ctor2: which arguments the constructors of vectors, angles, rays and
    rectangles accept, and the object each form builds (C160) *)
From Coq Require Import ZArith List Bool String Reals Lia.
From Verif Require Import Base Types NumR NumF Spec Abs M_Angle M_Vector M_Line M_Ray M_Sector M_Rect P_Ctor.
Import ListNotations.
Local Open Scope num_scope.

Section Kw2.
  Context {T : Type}.
  Lemma kw_get_some k (v : val T) kw : kw_get k kw = Some v -> In (k, v) kw.
  Proof. induction kw as [|[k' v'] kw IH]; [easy|]. cbn. destruct (String.eqb_spec k k') as [->|]; [intros [= ->]; now left|]. intros H. right. now apply IH. Qed.
  Lemma two_keys (kw : list (string * val T)) p q : List.length kw = 2%nat -> p <> q -> In p kw -> In q kw -> kw = [p; q] \/ kw = [q; p].
  Proof.
    destruct kw as [|a [|b [|c kw]]]; try discriminate. intros _ N [->|[->|[]]] [E|[E|[]]]; subst; try (now destruct N); auto.
  Qed.
End Kw2.

(** Vector2D(): the origin; Vector2D(x, y); Vector2D(v): a valid copy; with
    keywords only exactly two of them: x and y, or r and a (positional arguments
    are then ignored). *)
Theorem C160_vector_forms : forall (T : Type) (N : Num T) (args : list (val T)) (kw : list (string * val T)) (v : vec T), NoDup (map fst kw) ->
  (Vector2D_init args kw = Ok v <->
   (kw = [] /\ ((args = [] /\ v = mkVec (num 0) (num 0) true) \/ (exists x y, args = [VNum x; VNum y] /\ v = mkVec x y true) \/ (exists w, args = [VVec w] /\ v = mkVec (vx w) (vy w) true))) \/
   (List.length kw = 2%nat /\ exists x y, In ("x"%string, VNum x) kw /\ In ("y"%string, VNum y) kw /\ v = mkVec x y true) \/
   (List.length kw = 2%nat /\ exists r, In ("r"%string, VNum r) kw /\
      ((exists x, In ("a"%string, VNum x) kw /\ Vector2D_from_polar r (AN x) = Ok v) \/ (exists a, In ("a"%string, VAng a) kw /\ Vector2D_from_polar r (AA a) = Ok v)))).
Proof.
  intros T N args kw v ND. split.
  - destruct kw as [|k1 [|k2 [|k3 kw]]].
    + intros H. left. split; [reflexivity|]. destruct args as [|x [|y [|z args]]]; cbn in H.
      * injection H as <-. now left.
      * destruct x; try discriminate. injection H as <-. right; right. now exists v0.
      * destruct x; try discriminate; destruct y; try discriminate. injection H as <-. right; left. now exists x, x0.
      * destruct x; try discriminate; destruct y; discriminate.
    + discriminate.
    + set (kw := [k1; k2]) in *. intros H. right. unfold Vector2D_init in H. unfold kw in H at 1. cbv iota in H.
      assert (POL : match kw_get "r" kw, kw_get "a" kw with
         | Some (VNum r), Some (VNum a) => Vector2D_set_polar (V (num 0) (num 0)) r (AN a)
         | Some (VNum r), Some (VAng a) => Vector2D_set_polar (V (num 0) (num 0)) r (AA a)
         | Some _, Some _ => Raise TypeError
         | _, _ => Raise GenericException end = Ok v -> exists r, In ("r"%string, VNum r) kw /\
        ((exists x, In ("a"%string, VNum x) kw /\ Vector2D_from_polar r (AN x) = Ok v) \/ (exists a, In ("a"%string, VAng a) kw /\ Vector2D_from_polar r (AA a) = Ok v))).
      { destruct (kw_get "r" kw) as [rr|] eqn:ER; [|discriminate]. destruct (kw_get "a" kw) as [aa|] eqn:EA; [|destruct rr; discriminate]. apply kw_get_some in ER, EA.
        destruct rr; try discriminate; try (destruct aa; discriminate). destruct aa; try discriminate; intros HV; exists x; (split; [exact ER|]); [left|right]; eauto. }
      destruct (kw_get "x" kw) as [xx|] eqn:EX; [destruct (kw_get "y" kw) as [yy|] eqn:EY|].
      * apply kw_get_some in EX, EY. destruct xx; try (destruct yy; discriminate). destruct yy; try discriminate. injection H as <-. left. split; [reflexivity|]. now exists x, x0.
      * destruct xx; right; split; try reflexivity; exact (POL H).
      * right. split; [reflexivity|]. exact (POL H).
    + intros H. exfalso. destruct k1, k2; discriminate.
  - intros [[-> [[-> ->]|[(x & y & -> & ->)|(w & -> & ->)]]]|[[L (x & y & X & Y & ->)]|[L (r & HR & HA)]]]; try reflexivity.
    + destruct kw as [|k1 [|k2 [|k3 kw]]]; try discriminate L. set (kw := [k1; k2]) in *. unfold Vector2D_init. unfold kw at 1. cbv iota.
      now rewrite (kw_get_in _ _ _ ND X), (kw_get_in _ _ _ ND Y).
    + assert (G : forall z, In ("a"%string, z) kw -> kw = [("r"%string, VNum r); ("a"%string, z)] \/ kw = [("a"%string, z); ("r"%string, VNum r)]) by (intros z HZ; apply two_keys; try assumption; discriminate).
      destruct HA as [(x & HA & HV)|(a & HA & HV)]; destruct (G _ HA) as [-> | ->]; exact HV.
Qed.

(** AngleDeg(): 0; AngleDeg(x), AngleDeg(a), AngleDeg(af=x), always normalised.
    A single positional argument wins over any keyword; af is read whenever the
    number of positional arguments is not one. *)
Theorem C160_angle_forms : forall (T : Type) (N : Num T) (args : list (val T)) (kw : list (string * val T)) (a : angle T), NoDup (map fst kw) ->
  (AngleDeg_init args kw = Ok a <->
   exists x, AngleDeg_normal x = Ok (a_degree a) /\
     ((args = [] /\ kw = [] /\ x = num 0) \/ args = [VNum x] \/ (exists b, args = [VAng b] /\ AngleDeg_degree b = Ok x) \/ (List.length args <> 1%nat /\ In ("af"%string, VNum x) kw))).
Proof.
  intros T N args kw a ND.
  assert (NM : forall x, AngleDeg_of_num x = Ok a <-> AngleDeg_normal x = Ok (a_degree a)).
  { intros x. unfold AngleDeg_of_num. destruct (AngleDeg_normal x) as [d|e]; cbn; [|split; discriminate]. destruct a as [ad]. cbn. split; intros E; injection E as ->; reflexivity. }
  assert (KW : List.length args <> 1%nat -> (args <> [] \/ kw <> []) -> (AngleDeg_init args kw = Ok a <-> exists x, AngleDeg_normal x = Ok (a_degree a) /\ In ("af"%string, VNum x) kw)).
  { intros L NE. assert (E : AngleDeg_init args kw = match kw_get "af" kw with Some (VNum x) => AngleDeg_of_num x | Some _ => Raise TypeError | None => Raise GenericException end).
    { destruct args as [|u [|w args]]; [|now destruct L|reflexivity]. destruct kw; [destruct NE as [H|H]; now destruct H|reflexivity]. }
    rewrite E. split.
    - destruct (kw_get "af" kw) as [z|] eqn:EZ; [|discriminate]. destruct z; try discriminate. rewrite NM. intros H. exists x. split; [exact H|]. now apply kw_get_some.
    - intros (x & H & I). rewrite (kw_get_in _ _ _ ND I). now apply NM. }
  destruct args as [|u [|w args]].
  - destruct kw as [|k kw].
    + cbn [AngleDeg_init]. rewrite NM. split.
      * intros H. exists (num 0). auto.
      * intros (x & H & [(_ & _ & ->)|[E|[(b & E & _)|[_ []]]]]); [exact H|discriminate|discriminate].
    + rewrite KW by (try discriminate; right; discriminate). split.
      * intros (x & H & I). exists x. split; [exact H|]. do 3 right. split; [discriminate|exact I].
      * intros (x & H & [(_ & E & _)|[E|[(b & E & _)|[_ I]]]]); try discriminate. eauto.
  - assert (E : AngleDeg_init [u] kw = AngleDeg_ctor_val u) by reflexivity. rewrite E. split.
    + destruct u; cbn; try discriminate.
      * rewrite NM. intros H. exists x. split; [exact H|]. auto.
      * unfold AngleDeg_of_angle. destruct (AngleDeg_degree a0) as [d|e] eqn:ED; cbn; [|discriminate]. rewrite NM. intros H. exists d. split; [exact H|]. right; right; left. eauto.
    + intros (x & H & [(E1 & _)|[E1|[(b & E1 & E2)|[L _]]]]); try discriminate.
      * injection E1 as ->. cbn. now apply NM.
      * injection E1 as ->. cbn. unfold AngleDeg_of_angle. rewrite E2. cbn. now apply NM.
      * now destruct L.
  - rewrite KW by (try discriminate; left; discriminate). split.
    + intros (x & H & I). exists x. split; [exact H|]. do 3 right. split; [discriminate|exact I].
    + intros (x & H & [(E1 & _)|[E1|[(b & E1 & E2)|[L I]]]]); try discriminate. eauto.
Qed.

(** Ray2D(origin, point), Ray2D(origin, angle) and Ray2D(origin, number), and
    nothing else *)
Theorem C160_ray_forms : forall (T : Type) (N : Num T) (o d : val T) (r : ray T),
  Ray2D_init o d = Ok r <->
  exists p th, o = VVec p /\ r = mkRay (mkVec (vx p) (vy p) true) th /\
    ((exists q, d = VVec q /\ Vector2D_th (mkVec (nsub (vx q) (vx p)) (nsub (vy q) (vy p)) true) = Ok th) \/ ((exists b, d = VAng b) \/ (exists x, d = VNum x)) /\ AngleDeg_init [d] [] = Ok th).
Proof.
  intros T N o d r. split.
  - destruct o; try discriminate. destruct d; try discriminate; cbn [Ray2D_init]; unfold Ray2D_of_point, Ray2D_of_angle.
    + destruct (AngleDeg_of_arg (AN x)) as [th|e] eqn:E; cbn; [|discriminate]. intros [= <-]. exists v, th. split; [reflexivity|]. split; [reflexivity|]. right. split; [right; eauto|exact E].
    + destruct (AngleDeg_of_arg (AA a)) as [th|e] eqn:E; cbn; [|discriminate]. intros [= <-]. exists v, th. split; [reflexivity|]. split; [reflexivity|]. right. split; [left; eauto|exact E].
    + destruct (Vector2D_th (Vector2D_sub v0 v)) as [th|e] eqn:E; cbn; [|discriminate]. intros [= <-]. exists v, th. split; [reflexivity|]. split; [reflexivity|]. left. exists v0. split; [reflexivity|exact E].
  - intros (p & th & -> & -> & [(q & -> & E)|[[(b & ->)|(x & ->)] E]]); cbn [Ray2D_init].
    + unfold Ray2D_of_point. change (Vector2D_sub q p) with (mkVec (nsub (vx q) (vx p)) (nsub (vy q) (vy p)) true). rewrite E. reflexivity.
    + unfold Ray2D_of_angle. change (AngleDeg_of_arg (AA b)) with (AngleDeg_init [VAng b] []). rewrite E. reflexivity.
    + unfold Ray2D_of_angle. change (AngleDeg_of_arg (AN x)) with (AngleDeg_init [VNum x] []). rewrite E. reflexivity.
Qed.

(** A length given to Rect2D: a number, or an angle standing for its degrees;
    the magnitude is kept *)
Definition length_arg {T} {N : Num T} (v : val T) (l : T) : Prop :=
  (exists x, v = VNum x /\ l = nabs x) \/ (exists a d, v = VAng a /\ AngleDeg_degree a = Ok d /\ l = nabs d).
Lemma fabs_arg_spec {T} {N : Num T} (v : val T) l : fabs_arg v = Ok l <-> length_arg v l.
Proof.
  unfold length_arg. split.
  - destruct v; try discriminate; cbn [fabs_arg]; unfold AngleDeg_float.
    + intros [= <-]. left. eauto.
    + destruct (AngleDeg_degree a) as [d|e] eqn:E; cbn; [|discriminate]. intros [= <-]. right. eauto.
  - intros [(x & -> & ->)|(a & d & -> & E & ->)]; cbn [fabs_arg]; [reflexivity|]. unfold AngleDeg_float. now rewrite E.
Qed.
Lemma size_args_spec {T} {N : Num T} (u v : val T) s : Size2D_of_args u v = Ok s <-> exists l w, length_arg u l /\ length_arg v w /\ s = mkSize l w.
Proof.
  unfold Size2D_of_args. split.
  - destruct (fabs_arg u) as [l|e] eqn:E1; cbn; [|discriminate]. destruct (fabs_arg v) as [w|e] eqn:E2; cbn; [|discriminate]. intros [= <-]. exists l, w. split; [now apply fabs_arg_spec|]. split; [now apply fabs_arg_spec|reflexivity].
  - intros (l & w & H1 & H2 & ->). apply fabs_arg_spec in H1, H2. now rewrite H1, H2.
Qed.
Lemma bind_ok {A B} (m : res A) (f : A -> res B) b : bind m f = Ok b -> exists a, m = Ok a /\ f a = Ok b.
Proof. destruct m as [a|e]; cbn; [eauto|discriminate]. Qed.

(** Rect2D(left, top, length, width), Rect2D(top_left, length, width) and
    Rect2D(top_left, size) and Rect2D(rect); two corners give an empty
    rectangle (C59) *)
Theorem C160_rect_forms : forall (T : Type) (N : Num T) (args : list (val T)) (r : rect T),
  Rect2D_init args = Ok r <->
  (exists x y u v l w, args = [VNum x; VNum y; u; v] /\ length_arg u l /\ length_arg v w /\ r = mkRect (mkVec x y true) (mkSize l w) true) \/
  (exists p u v l w, args = [VVec p; u; v] /\ length_arg u l /\ length_arg v w /\ r = mkRect (mkVec (vx p) (vy p) true) (mkSize l w) true) \/
  (exists p q z, args = [VVec p; VVec q] /\ z = nabs (num 0) /\
     r = mkRect (if nltb (nsub (vy q) (vy p)) (num 0) then mkVec (if nltb (nsub (vx q) (vx p)) (num 0) then vx q else vx p) (vy q) true else mkVec (num 0) (num 0) true) (mkSize z z) true) \/
  (exists p s, args = [VVec p; VSize s] /\ r = mkRect (mkVec (vx p) (vy p) true) s true) \/
  (exists o, args = [VRect o] /\ r = mkRect (mkVec (vx (r_top_left o)) (vy (r_top_left o)) true) (mkSize (nabs (sz_length (r_size o))) (nabs (sz_width (r_size o)))) (Rect2D_is_valid o)).
Proof.
  intros T N args r. split.
  - destruct args as [|a [|b [|c [|d [|e args]]]]]; cbn [Rect2D_init]; try discriminate.
    + destruct a; try discriminate. intros [= <-]. do 4 right. eexists. split; reflexivity.
    + destruct a; try discriminate; destruct b; try discriminate; intros H; injection H as <-.
      * right; right; left. exists v, v0, (nabs (num 0)). split; [reflexivity|]. split; [reflexivity|]. unfold Rect2D_of_corners, two_corner_fields. cbn [vx vy Vector2D_of_vec V]. destruct (nltb (nsub (vy v0) (vy v)) (num 0)), (nltb (nsub (vx v0) (vx v)) (num 0)); reflexivity.
      * right; right; right; left. now exists v, s.
    + destruct a; try discriminate; try (destruct b; discriminate). intros H. assert (K : bind (Size2D_of_args b c) (fun s => Ok (mkRect (Vector2D_of_vec v) s true)) = Ok r) by (destruct b; exact H). clear H. rename K into H. apply bind_ok in H as (s & H & [= <-]). apply size_args_spec in H as (l & w & H1 & H2 & ->). right; left. now exists v, b, c, l, w.
    + destruct a; try discriminate; destruct b; try discriminate. intros H. apply bind_ok in H as (s & H & [= <-]). apply size_args_spec in H as (l & w & H1 & H2 & ->). left. now exists x, x0, c, d, l, w.
    + destruct a; try discriminate; destruct b; try discriminate; destruct c; try discriminate; destruct d; discriminate.
  - intros [(x & y & u & v & l & w & -> & H1 & H2 & ->)|[(p & u & v & l & w & -> & H1 & H2 & ->)|[(p & q & z & -> & -> & ->)|[(p & s & -> & ->)|(o & -> & ->)]]]]; try reflexivity.
    1, 2: assert (K : Size2D_of_args u v = Ok (mkSize l w)) by (apply size_args_spec; eauto).
    1: cbn [Rect2D_init]; rewrite K; reflexivity.
    1: assert (K2 : Rect2D_init [VVec p; u; v] = bind (Size2D_of_args u v) (fun s => Ok (mkRect (Vector2D_of_vec p) s true))) by (destruct u; reflexivity); rewrite K2, K; reflexivity.
    cbn [Rect2D_init]. unfold Rect2D_of_corners, two_corner_fields. cbn [vx vy Vector2D_of_vec V]. destruct (nltb (nsub (vy q) (vy p)) (num 0)), (nltb (nsub (vx q) (vx p)) (num 0)); reflexivity.
Qed.

(** Each constructor takes one of its forms and refuses others, e.g. three keywords. *)
Example C160_nonvacuous :
  NoDup (map fst [("a"%string, VNum 30%R); ("r"%string, VNum 2%R)]) /\
  Vector2D_init [] [("y"%string, VNum 2%R); ("x"%string, VNum 1%R)] = Ok (mkVec 1%R 2%R true) /\
  Vector2D_init [] [("y"%string, VNum 2%R); ("x"%string, VNum 1%R); ("r"%string, VNum 1%R)] = Raise GenericException /\
  Ray2D_init (VNum 1%R) (VNum 0%R) = Raise GenericException /\ Rect2D_init [VVec (mkVec 1%R 2%R true); VSize (mkSize 3%R 4%R)] = Ok (mkRect (mkVec 1%R 2%R true) (mkSize 3%R 4%R) true).
Proof. split; [repeat constructor; cbn; intuition discriminate|]. repeat split. Qed.
