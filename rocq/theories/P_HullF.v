(** * P_HullF: the wrapping method in binary64 on a grid (C114) *)
From Coq Require Import ZArith List Bool String Reals Lra Lia Psatz Permutation Classical.
From Flocq Require Import Core BinarySingleNaN.
From Verif Require Import Base Types NumR NumF R_Tac Spec Spec2 Abs M_Angle M_Vector M_Line M_Triangle M_Segment M_Sector M_Rect M_Polygon M_Hull
  L_Angle P_Angle P_Vector P_Line L_Seg P_Segment P_Triangle P_Rect P_Polygon P_Polygon2 P_Polygon3 P_Hull P_Hull2 L_Float P_Float P_Grid P_Grid2.
Import ListNotations.
Local Open Scope R_scope.

(** ** The hull from a chain of sides (ideal numbers) *)
Lemma chain_hull (pts : list (vec R)) d mi new : (3 <= List.length pts)%nat -> gp pts d -> NoDup (mi :: new) -> (forall i, In i (mi :: new) -> (i < List.length pts)%nat) ->
  new <> [] -> chain (hull_edge pts d) mi (new ++ [mi]) ->
  let vs := map (fun i => nth i pts d) (mi :: new) in
  (3 <= List.length vs)%nat /\ strictly_convex (map pt vs) /\
  (forall k, (k < List.length pts)%nat -> ~ In k (mi :: new) -> strictly_inside (map pt vs) (P pts d k)) /\
  (forall p, In p pts -> Polygon2D_contains vs p true = Ok true).
Proof.
  intros Hn GPI ND HI NE CH vs.
  assert (EP : map pt vs = map (P pts d) (mi :: new)) by (unfold vs; rewrite map_map; reflexivity).
  assert (CE : forall i j, In (i, j) (closed_edges (mi :: new)) -> hull_edge pts d i j).
  { rewrite <- cyc_pairs_closed. cbn [cyc_pairs]. revert CH. generalize mi at 1 3. clear.
    intros a. revert a. induction new as [|b l IH]; intros a; cbn [app chain path_pairs].
    - intros [H _] i j [[= <- <-]|[]]. exact H.
    - intros [H1 H2] i j [[= <- <-]|Hij]; [easy|]. now apply (IH b). }
  assert (CEP : forall a b, In (a, b) (closed_edges (map pt vs)) -> exists i j, a = P pts d i /\ b = P pts d j /\ In (i, j) (closed_edges (mi :: new)) /\ hull_edge pts d i j).
  { intros a b. rewrite EP, closed_edges_map, in_map_iff. intros ([i j] & E & Hij). injection E as <- <-. exists i, j. auto. }
  assert (NDP : NoDup (map pt vs)).
  { rewrite EP. clear - ND HI GPI. revert ND HI. generalize (mi :: new). induction l as [|a l IH]; intros ND HI; cbn; constructor.
    - intros K. apply in_map_iff in K. destruct K as (b & E & Hb). inversion ND as [|x y N1 N2]; subst. destruct (Nat.eq_dec b a) as [->|Nba]; [easy|].
      apply (proj1 GPI b a) in E; auto; [apply HI; cbn; auto|apply HI; cbn; auto].
    - apply IH; [now inversion ND|]. intros; apply HI; cbn; auto. }
  assert (SIK : forall k, (k < List.length pts)%nat -> ~ In k (mi :: new) -> strictly_inside (map pt vs) (P pts d k)).
  { intros k Hk N a b Hab. destruct (CEP a b Hab) as (i & j & -> & -> & Hij & (H1 & H2 & H3 & H4)). apply in_closed in Hij. cbn [fst snd] in Hij. apply H4; auto; intros ->; tauto. }
  assert (SI : forall p, In p pts -> In p vs \/ strictly_inside (map pt vs) (pt p)).
  { intros p Hp. apply (In_nth _ _ d) in Hp. destruct Hp as (k & Hk & <-).
    destruct (in_dec Nat.eq_dec k (mi :: new)) as [I|N]; [left; unfold vs; now apply (in_map (fun i => nth i pts d))|]. right. now apply SIK. }
  assert (L3 : (3 <= List.length vs)%nat).
  { unfold vs. rewrite map_length. cbn [List.length]. destruct new as [|a [|b new]]; [easy| |cbn; lia]. exfalso.
    destruct (CE mi a) as (H1 & H2 & H3 & H4); [cbn; auto|]. destruct (CE a mi) as (Q1 & Q2 & Q3 & Q4); [cbn; auto|].
    assert (exists k, (k < List.length pts)%nat /\ k <> mi /\ k <> a) as (k & Hk & N1 & N2).
    { destruct (Nat.eq_dec mi 0), (Nat.eq_dec mi 1), (Nat.eq_dec mi 2), (Nat.eq_dec a 0), (Nat.eq_dec a 1), (Nat.eq_dec a 2); try lia; first [exists 0%nat; lia|exists 1%nat; lia|exists 2%nat; lia]. }
    specialize (H4 k Hk N1 N2). specialize (Q4 k Hk N2 N1). assert (side (P pts d a) (P pts d mi) (P pts d k) = - side (P pts d mi) (P pts d a) (P pts d k)) by (rewrite !side_level; ring). lra. }
  assert (SC : strictly_convex (map pt vs)).
  { split; [easy|]. intros a b v Hab Hv Na Nb. destruct (CEP a b Hab) as (i & j & -> & -> & Hij & (H1 & H2 & H3 & H4)).
    rewrite EP in Hv. apply in_map_iff in Hv. destruct Hv as (k & <- & Hk). apply H4; [now apply HI|intros ->; easy|intros ->; easy]. }
  split; [easy|]. split; [easy|]. split; [easy|].
  intros p Hp. destruct (SI p Hp) as [Hv|Hin]; [now apply C70_vertices_R|].
  assert (NO : ~ on_outline (map pt vs) (pt p)).
  { intros ([a b] & He & (t & _ & E)). specialize (Hin a b He). cbn [fst snd] in E. rewrite E, side_lerp in Hin. rewrite !side_level in Hin. lra. }
  pose proof (contains_parity vs p true NO ltac:(discriminate)) as EC. rewrite EC. f_equal.
  destruct (C71_convex_R vs p true _ ltac:(lia) NO EC) as [H1 _]. now apply H1.
Qed.

(** ** The edge list, any arithmetic *)
Section Gen.
  Context {T : Type} `{Num T}.
  Lemma build_edges_loop_gen (pre rest : list (vec T)) (a z : vec T) es : Vector2D_eq z z = true -> last rest a = z ->
    fold_left (fun acc i => es <- acc ;; v <- py_get (pre ++ a :: rest) (Z.of_nat i) ;;
                 if negb (Vector2D_eq v z) then w <- py_get (pre ++ a :: rest) (Z.of_nat (S i)) ;; Ok (es ++ [Segment2D_of_points v w]) else Ok es)%py
      (seq (List.length pre) (S (List.length rest))) (Ok es) =
    Ok (es ++ map (fun e => Segment2D_of_points (fst e) (snd e)) (filter (fun e => negb (Vector2D_eq (fst e) z)) (open_pairs (a :: rest)))).
  Proof.
    intros ZZ. revert pre a es. induction rest as [|b rest IH]; intros pre a es HL.
    - cbn [seq fold_left List.length open_pairs filter map]. cbn in HL. subst z.
      rewrite (py_get_nat _ _ a) by (rewrite nth_error_app2, Nat.sub_diag by lia; reflexivity). cbn [bind].
      rewrite ZZ. cbn [negb]. now rewrite app_nil_r.
    - change (seq (List.length pre) (S (List.length (b :: rest)))) with (List.length pre :: seq (S (List.length pre)) (S (List.length rest))).
      cbn [fold_left]. rewrite last_cons_def in HL.
      assert (G1 : py_get (pre ++ a :: b :: rest) (Z.of_nat (List.length pre)) = Ok a) by (apply py_get_nat; rewrite nth_error_app2, Nat.sub_diag by lia; reflexivity).
      assert (G2 : py_get (pre ++ a :: b :: rest) (Z.of_nat (S (List.length pre))) = Ok b) by (apply py_get_nat; rewrite nth_error_app2 by lia; replace (S (List.length pre) - List.length pre)%nat with 1%nat by lia; reflexivity).
      rewrite G1. cbn [bind]. rewrite G2. cbn [bind].
      change (open_pairs (a :: b :: rest)) with ((a, b) :: open_pairs (b :: rest)). cbn [filter fst].
      pose proof (IH (pre ++ [a]) b) as IH'. rewrite <- app_assoc in IH'. cbn [app] in IH'. rewrite app_length in IH'. cbn [List.length] in IH'. rewrite Nat.add_1_r in IH'.
      destruct (Vector2D_eq a z); cbn [negb]; rewrite IH' by easy; [easy|]. cbn [map fst snd]. now rewrite <- app_assoc.
  Qed.
  Lemma build_edges_gen (a : vec T) l : Vector2D_eq (last l a) (last l a) = true ->
    build_edges (a :: l) = Ok (map (fun e => Segment2D_of_points (fst e) (snd e)) (filter (fun e => negb (Vector2D_eq (fst e) (last l a))) (open_pairs (a :: l)))).
  Proof.
    intros ZZ. unfold build_edges. destruct (rev (a :: l)) as [|z r] eqn:E. { exfalso. apply (f_equal (@List.length _)) in E. rewrite rev_length in E. discriminate. }
    assert (EZ : z = last l a). { rewrite <- (last_cons_def a a). rewrite <- (rev_involutive (a :: l)), E. cbn [rev]. now rewrite last_last. }
    rewrite EZ. exact (build_edges_loop_gen [] l a (last l a) [] ZZ eq_refl).
  Qed.
End Gen.

(** ** The loops in doubles *)
Definition finv (v : vec F) : Prop := is_finite (vx v) = true /\ is_finite (vy v) = true.
Lemma veq_fin L a b : finv a -> finv b -> @Vector2D_eq F (NumF L) a b = Vector2D_eq (rvec a) (rvec b).
Proof. intros [A1 A2] [B1 B2]. unfold Vector2D_eq. cbn [neqb NumF]. rewrite !eqb_F by easy. reflexivity. Qed.
Lemma min_loop_F L l i mp mi : Forall finv l -> finv mp ->
  @min_loop F (NumF L) l i mp mi = min_loop (map rvec l) i (rvec mp) mi.
Proof.
  intros G. revert i mp mi. induction G as [|p l Gp _ IH]; intros i mp mi Gm; [reflexivity|]. cbn [min_loop map].
  pose proof Gp as [F1 F2]; pose proof Gm as [F3 F4].
  assert (E : ((@nltb F (NumF L) (vx p) (vx mp)) || ((@neqb F (NumF L) (vx mp) (vx p)) && (@nltb F (NumF L) (vy p) (vy mp)))) =
     ((nltb (vx (rvec p)) (vx (rvec mp))) || ((neqb (vx (rvec mp)) (vx (rvec p))) && (nltb (vy (rvec p)) (vy (rvec mp)))))).
  { cbn [nltb neqb NumF]. rewrite !ltb_F, eqb_F by assumption. reflexivity. }
  rewrite E. rewrite !IH by assumption. reflexivity.
Qed.
Lemma min_index_F L pts : Forall finv pts -> @get_min_point_index F (NumF L) pts = get_min_point_index (map rvec pts).
Proof.
  intros G. destruct pts as [|p l]; [reflexivity|]. cbn [get_min_point_index]. inversion G; subst.
  now rewrite (min_loop_F L) by assumption.
Qed.
(** What the algorithm asks about the area of three points gives the same answer
    as over the reals. *)
Definition area_tests (L : libm) (a b c : vec F) : Prop :=
  let A := @double_signed_area_st F (NumF L) a b c in
  let S := double_signed_area_st (rvec a) (rvec b) (rvec c) in
  @nltb F (NumF L) A (@nlit F (NumF L) 0 1) = nltb S (num 0) /\
  (nltb S (num 0) = false -> @nltb F (NumF L) A (@EPSILON F (NumF L)) = false /\ nltb S EPSILON = false).
Section WrapF.
  Variables (L : libm) (pts : list (vec F)) (d : vec F).
  Let n := List.length pts.
  Let rp := map rvec pts.
  Hypothesis AT : forall i j k, (i < n)%nat -> (j < n)%nat -> (k < n)%nat -> i <> j -> j <> k -> i <> k -> area_tests L (nth i pts d) (nth j pts d) (nth k pts d).
  Hypothesis GP : gp rp (rvec d).
  Local Lemma nthR i : nth i rp (rvec d) = rvec (nth i pts d). Proof. unfold rp. apply map_nth. Qed.
  Local Lemma lenR : List.length rp = n. Proof. unfold rp. apply map_length. Qed.
  (** the scans agree *)
  Lemma scan_F cur used is cand : (cur < n)%nat -> (cand < n)%nat -> cand <> cur -> (forall i, In i is -> (i < n)%nat) -> NoDup is -> ~ In cand is ->
    @wrap_scan F (NumF L) pts (nth cur pts d) cur used is cand = wrap_scan rp (nth cur rp (rvec d)) cur used is cand.
  Proof.
    intros Hcur. revert cand. induction is as [|i is IH]; intros cand Hc Nc Hi ND NI; [reflexivity|]. cbn [wrap_scan].
    assert (Hi' : forall j, In j is -> (j < n)%nat) by (intros; apply Hi; cbn; auto). pose proof (Hi i ltac:(cbn; auto)) as Hii.
    inversion ND as [|x y ND1 ND2]; subst. assert (NI' : ~ In cand is) by (cbn in NI; tauto). assert (Nic : cand <> i) by (cbn in NI; intros ->; tauto).
    destruct (Nat.eqb i cur || existsb (Nat.eqb i) used) eqn:E; [now apply IH|].
    assert (Nicur : i <> cur) by (apply orb_false_iff in E; destruct E as [E _]; now apply Nat.eqb_neq).
    rewrite (py_get_nth pts cand d), (py_get_nth pts i d) by assumption. rewrite (py_get_nth rp cand (rvec d)), (py_get_nth rp i (rvec d)) by (rewrite lenR; assumption). cbn [bind].
    destruct (AT cur cand i Hcur Hc Hii (not_eq_sym Nc) Nic (not_eq_sym Nicur)) as [T1 T2]. rewrite <- !nthR in T1, T2. cbv zeta in T1, T2 |- *. rewrite T1. clear T1.
    set (tt := nltb (double_signed_area_st (nth cur rp (rvec d)) _ _) (num 0)) in *. destruct tt; [now apply IH|]. destruct (T2 eq_refl) as [-> ->]. now apply IH.
  Qed.
  Lemma loop_F fuel mi cur used verts : (3 <= n)%nat -> (mi < n)%nat -> NoDup (mi :: used) -> (forall i, In i used -> (i < n)%nat) ->
    cur = last used mi -> (fuel + List.length used = S n)%nat -> lexmin rp (rvec d) mi -> chain (hull_edge rp (rvec d)) mi used ->
    exists new, @wrap_loop F (NumF L) fuel pts mi cur used verts = Ok (verts ++ map (fun i => nth i pts d) (new ++ [mi])) /\
      NoDup (mi :: used ++ new) /\ (forall i, In i new -> (i < n)%nat) /\ (used = [] -> new <> []) /\
      chain (hull_edge rp (rvec d)) mi (used ++ new ++ [mi]).
  Proof.
    intros Hn Hmi. revert cur used verts. induction fuel as [|fuel IH]; intros cur used verts ND Hused Hcur HF LM CH.
    - exfalso. assert (LL : (List.length used <= List.length (seq 0 n))%nat).
      { apply NoDup_incl_length; [now inversion ND|]. intros i Hi. apply in_seq. specialize (Hused i Hi). lia. }
      rewrite seq_length in LL. lia.
    - assert (Hcn : (cur < n)%nat). { destruct used as [|u us]; [cbn in Hcur; now subst|]. apply Hused. subst cur. rewrite last_cons_def. apply last_in. }
      cbn [wrap_loop]. rewrite (py_get_nth pts cur d Hcn). cbn [bind]. fold n.
      pose proof lenR as LR.
      destruct (wrap_round rp (rvec d) cur used mi) as (c & WS & Hc & Nc1 & Nc2 & HE); rewrite ?LR; try assumption.
      cbv zeta in WS. rewrite LR in *.
      assert (SC : @wrap_scan F (NumF L) pts (nth cur pts d) cur used (seq (S (first_candidate n cur used)) (n - S (first_candidate n cur used))) (first_candidate n cur used) = Ok c).
      { destruct (first_avail rp cur used mi) as [c0 E0]; rewrite ?LR; try assumption. rewrite LR in E0.
        assert (EC : first_candidate n cur used = c0). { unfold first_candidate. change (fun i => negb (Nat.eqb i cur) && negb (existsb (Nat.eqb i) used)) with (avail cur used). now rewrite E0. }
        rewrite EC in *. pose proof (find_some _ _ E0) as [I0 AV0]. apply in_seq in I0. apply avail_iff in AV0.
        rewrite scan_F; [exact WS|assumption|lia|tauto| |apply seq_NoDup|rewrite in_seq; lia]. intros i Hi. apply in_seq in Hi. lia. }
      rewrite SC. cbn [bind]. rewrite (py_get_nth pts c d Hc). cbn [bind].
      destruct (Nat.eqb_spec c mi) as [->|Ncm].
      + exists []. split; [easy|]. rewrite app_nil_r. split; [easy|]. split; [easy|]. split; [intros ->; cbn in Hcur; congruence|].
        cbn [app]. apply chain_snoc; [easy|]. rewrite <- Hcur. now apply HE.
      + destruct (IH c (used ++ [c]) (verts ++ [nth c pts d])) as (new & E & ND' & Hnew & _ & HC').
        { inversion ND as [|x y N1 N2]; subst. constructor; [rewrite in_app_iff; cbn; intuition|]. apply (Permutation_NoDup (Permutation_cons_append used c)). now constructor. }
        { intros i Hi. apply in_app_iff in Hi. destruct Hi as [Hi|[<-|[]]]; auto. }
        { now rewrite last_last. } { rewrite app_length; cbn. lia. } { exact LM. } { apply chain_snoc; [easy|]. rewrite <- Hcur. now apply HE. }
        exists (c :: new). rewrite E. split; [now rewrite <- app_assoc|]. rewrite <- app_assoc in ND'. cbn [app] in *. split; [easy|].
        split; [intros i [<-|Hi]; auto|]. split; [discriminate|]. rewrite <- app_assoc in HC'. exact HC'.
  Qed.
End WrapF.

(** ** The hull in doubles, from the answers of the area tests *)
Lemma hull_F L (pts : list (vec F)) sorter : Forall finv pts -> (3 <= List.length pts)%nat -> general_position (map fpt pts) ->
  (forall a b c, In a pts -> In b pts -> In c pts -> fpt a <> fpt b -> fpt b <> fpt c -> fpt a <> fpt c -> area_tests L a b c) ->
  exists vs es, @ConvexHull_compute F (NumF L) sorter WRAPPING_METHOD (ConvexHull_init pts) = Ok (mkHull pts vs es false) /\
    (3 <= List.length vs)%nat /\ incl vs pts /\ strictly_convex (map fpt vs) /\
    (forall p, In p pts -> In p vs \/ strictly_inside (map fpt vs) (fpt p)) /\
    (forall p, In p pts -> Polygon2D_contains (map rvec vs) (rvec p) true = Ok true) /\
    es = map (fun e => Segment2D_of_points (fst e) (snd e)) (tl (closed_edges vs)).
Proof.
  intros G Hn GPR0 AT0. set (d := mkVec (F_of_Z 0) (F_of_Z 0) true : vec F). set (rp := map rvec pts).
  assert (EF : map pt rp = map fpt pts) by (unfold rp; rewrite map_map; reflexivity).
  assert (GPR : general_position (map pt rp)) by (rewrite EF; exact GPR0).
  pose proof (gp_of_general rp (rvec d) GPR) as GP.
  assert (LR : List.length rp = List.length pts) by (unfold rp; apply map_length).
  assert (NEQ : forall i j, (i < List.length pts)%nat -> (j < List.length pts)%nat -> i <> j -> fpt (nth i pts d) <> fpt (nth j pts d)).
  { intros i j Hi Hj N E. destruct GPR0 as [ND _]. apply N. apply (proj1 (NoDup_nth (map fpt pts) (fpt d)) ND); rewrite ?map_length; try assumption. now rewrite !map_nth. }
  assert (AT : forall i j k, (i < List.length pts)%nat -> (j < List.length pts)%nat -> (k < List.length pts)%nat -> i <> j -> j <> k -> i <> k ->
     area_tests L (nth i pts d) (nth j pts d) (nth k pts d)).
  { intros i j k Hi Hj Hk N1 N2 N3. apply AT0; try (now apply nth_In); now apply NEQ. }
  destruct (min_index_R rp (rvec d)) as (mi & Emi & Hmi & LM); [intros K; rewrite K in LR; cbn in LR; lia|]. rewrite LR in Hmi.
  assert (LM' : lexmin rp (rvec d) mi) by (intros k Hk; apply LM; now apply nth_In).
  destruct (loop_F L pts d AT GP (S (List.length pts)) mi mi [] [nth mi pts d]) as (new & E & NDI & Hnew & NE & CH); try easy; try (cbn; lia).
  { repeat constructor; easy. }
  cbn [app] in *. specialize (NE eq_refl).
  assert (HI : forall i, In i (mi :: new) -> (i < List.length pts)%nat) by (intros i [<-|Hi]; auto).
  destruct (chain_hull rp (rvec d) mi new) as (L3 & SC & SIK & CO); try assumption; try (rewrite LR; assumption).
  cbv zeta in *. set (vs := map (fun i => nth i pts d) (mi :: new)).
  assert (EV : map (fun i => nth i rp (rvec d)) (mi :: new) = map rvec vs).
  { unfold vs. rewrite map_map. apply map_ext. intros i. unfold rp. apply map_nth. }
  rewrite EV in *. assert (EVF : map pt (map rvec vs) = map fpt vs) by (rewrite map_map; reflexivity). rewrite EVF in *. rewrite map_length in L3.
  assert (INC : incl vs pts). { intros v Hv. unfold vs in Hv. apply in_map_iff in Hv. destruct Hv as (i & <- & Hi). apply nth_In. auto. }
  assert (GV : Forall finv vs). { rewrite Forall_forall in *. auto. }
  set (p0 := nth mi pts d). assert (G0 : finv p0) by (rewrite Forall_forall in G; apply G; apply nth_In; auto).
  assert (ZZ : @Vector2D_eq F (NumF L) p0 p0 = true) by (rewrite (veq_fin L) by assumption; now apply veq_iff).
  exists vs. eexists. split; [|split; [exact L3|split; [exact INC|split; [exact SC|split; [|split; [|]]]]]].
  - cbn [ConvexHull_compute]. unfold compute_wrapping_method, clear_results, ConvexHull_init. cbn [h_alias h_input].
    rewrite (min_index_F L pts G). fold rp. rewrite Emi. destruct (Nat.ltb_spec (List.length pts) 3); [lia|].
    rewrite (py_get_nth _ _ d Hmi). cbn [bind]. fold p0. fold p0 in E. rewrite E. cbn [bind].
    assert (EL : last (map (fun i => nth i pts d) (new ++ [mi])) p0 = p0) by (rewrite map_app; cbn [map]; apply last_last).
    rewrite build_edges_gen by (rewrite EL; exact ZZ). rewrite EL. cbn [bind]. do 2 f_equal.
    + rewrite map_app. cbn [map]. rewrite app_comm_cons. apply removelast_last.
  - intros p Hp. apply (In_nth _ _ d) in Hp. destruct Hp as (k & Hk & <-).
    destruct (in_dec Nat.eq_dec k (mi :: new)) as [I|N]; [left; unfold vs; now apply (in_map (fun i => nth i pts d))|]. right.
    specialize (SIK k ltac:(lia) N). unfold P in SIK. unfold rp in SIK. rewrite map_nth in SIK. exact SIK.
  - intros p Hp. apply CO. unfold rp. now apply in_map.
  - f_equal. rewrite map_app. cbn [map]. rewrite path_pairs_open. unfold vs. cbn [map]. fold p0. rewrite <- cyc_pairs_closed. cbn [cyc_pairs].
    assert (NI : forall v, In v (map (fun i => nth i pts d) new) -> @Vector2D_eq F (NumF L) v p0 = false).
    { intros v Hv. assert (IV : In v vs) by (unfold vs; cbn [map]; now right). rewrite (veq_fin L); [|rewrite Forall_forall in GV; now apply GV|assumption].
      apply not_true_iff_false. rewrite veq_iff. intros EQ. destruct SC as [NDV _]. unfold vs in NDV. cbn [map] in NDV. inversion NDV as [|x y N1 N2]; subst.
      apply N1. change (fpt v = fpt p0) in EQ. fold p0. rewrite <- EQ. apply in_map. exact Hv. }
    destruct (map (fun i => nth i pts d) new) as [|v1 l] eqn:EN; [destruct new; [easy|discriminate]|].
    cbn [path_pairs filter fst]. rewrite ZZ. cbn [negb tl].
    assert (GG : forall b, (forall v, In v (b :: l) -> @Vector2D_eq F (NumF L) v p0 = false) -> filter (fun e => negb (@Vector2D_eq F (NumF L) (fst e) p0)) (path_pairs b l p0) = path_pairs b l p0).
    { clear. induction l as [|c l IH]; intros b H; cbn [path_pairs filter fst]; rewrite (H b ltac:(cbn; auto)); cbn [negb]; [easy|]. f_equal. apply IH. intros; apply H; cbn; auto. }
    now apply GG.
Qed.

(** ** Grids *)
Lemma eps_F L : is_finite (@EPSILON F (NumF L)) = true /\ B2R (@EPSILON F (NumF L)) <= / 262144.
Proof. split; [vm_compute; reflexivity|]. vm_compute. lra. Qed.
Lemma grid_tests L e a b c : (-9 <= e <= 200)%Z -> on_grid e a -> on_grid e b -> on_grid e c -> Rabs (side (fpt a) (fpt b) (fpt c)) >= 1/1000000 -> area_tests L a b c.
Proof.
  intros He Ga Gb Gc G. unfold area_tests. cbv zeta.
  destruct (area_units L e _ _ _ Ga Gb Gc ltac:(lia)) as (N & N1 & [N2 N2'] & N3).
  change (Rabs (side (pt (rvec a)) (pt (rvec b)) (pt (rvec c))) >= 1/1000000) in G. rewrite <- area_side, N3 in G.
  rewrite N3. revert N2 N2'. generalize (@double_signed_area_st F (NumF L) a b c). intros ar N2 N2'.
  destruct (F_of_Z_exact 0 eq_refl) as [Z1 Z2]. rewrite num0_F. pose proof (eps_F L) as [E1 E2]. revert E1 E2. generalize (@EPSILON F (NumF L)). intros ep E1 E2.
  cbn [nltb NumF]. rewrite !ltb_F by assumption. rewrite N2', Z1. unfold EPSILON. rnum. split; [f_equal; lra|].
  intros K. assert (NN : 0 <= IZR N * bpow radix2 (e + e)) by (apply not_true_iff_false in K; rewrite Rlt_bool_iff in K; lra).
  assert (B1 : / 262144 <= bpow radix2 (e + e)).
  { replace (/ 262144) with (bpow radix2 (-18)) by (vm_compute; lra). apply bpow_le. lia. }
  assert (NZ : N <> 0%Z). { intros ->. rewrite Rmult_0_l, Rabs_R0 in G. lra. }
  assert (NP : (0 < N)%Z). { destruct (Z.lt_trichotomy N 0) as [K1|[K1|K1]]; [|easy|easy]. exfalso. apply IZR_lt in K1. nra. }
  assert (1 <= IZR N) by (apply IZR_le; lia). assert (/ 262144 <= IZR N * bpow radix2 (e + e)) by nra.
  split; apply Rlt_bool_false; lra.
Qed.

(** ** C114 *)
(** Gift wrapping in doubles on a grid no finer than 2^-9: for distinct points,
    no three on a line, it never raises and returns the convex hull. *)
Theorem C114_convex_hull_F : forall (L : libm) (e : Z) (pts : list (vec F)) sorter, (-9 <= e <= 200)%Z -> Forall (on_grid e) pts ->
  (3 <= List.length pts)%nat -> NoDup (map fpt pts) ->
  (forall a b c, In a pts -> In b pts -> In c pts -> fpt a <> fpt b -> fpt b <> fpt c -> fpt a <> fpt c -> ~ collinear (fpt a) (fpt b) (fpt c)) ->
  exists vs es, @ConvexHull_compute F (NumF L) sorter WRAPPING_METHOD (ConvexHull_init pts) = Ok (mkHull pts vs es false) /\
    (3 <= List.length vs)%nat /\ incl vs pts /\ strictly_convex (map fpt vs) /\
    (forall p, In p pts -> In p vs \/ strictly_inside (map fpt vs) (fpt p)) /\
    (forall p, In p pts -> @Polygon2D_contains F (NumF L) vs p true = Ok true) /\
    es = map (fun e => Segment2D_of_points (fst e) (snd e)) (tl (closed_edges vs)).
Proof.
  intros L e pts sorter He G Hn ND NC.
  assert (GPR : general_position (map fpt pts)).
  { split; [exact ND|]. intros A B C IA IB IC N1 N2 N3.
    apply in_map_iff in IA, IB, IC. destruct IA as (a & <- & IA), IB as (b & <- & IB), IC as (c & <- & IC).
    specialize (NC a b c IA IB IC N1 N2 N3). rewrite Forall_forall in G.
    destruct (area_units L e _ _ _ (G a IA) (G b IB) (G c IC) ltac:(lia)) as (N & _ & _ & N3'). rewrite area_side in N3'.
    change (side (fpt a) (fpt b) (fpt c) = IZR N * bpow radix2 (e + e)) in N3'. rewrite N3', Rabs_mult, (Rabs_pos_eq (bpow _ _)), <- abs_IZR by apply bpow_ge_0.
    assert (NZ : N <> 0%Z). { intros ->. apply NC. unfold collinear. rewrite Rmult_0_l in N3'. exact N3'. }
    assert (1 <= IZR (Z.abs N)) by (apply IZR_le; lia).
    assert (B1 : / 262144 <= bpow radix2 (e + e)). { replace (/ 262144) with (bpow radix2 (-18)) by (vm_compute; lra). apply bpow_le. lia. }
    nra. }
  assert (FV : Forall finv pts) by (rewrite Forall_forall in *; intros v Hv; apply (grid_fin e); auto).
  destruct (hull_F L pts sorter FV Hn GPR) as (vs & es & E & L3 & INC & SC & HI & CO & HE).
  { intros a b c IA IB IC N1 N2 N3. rewrite Forall_forall in G. apply (grid_tests L e); auto. apply GPR; try (now apply in_map); assumption. }
  exists vs, es. repeat (split; [assumption|]). split; [|assumption].
  intros p Hp. rewrite (contains_F_R L e); [now apply CO|lia| |rewrite Forall_forall in G; now apply G]. rewrite Forall_forall in *. auto.
Qed.
Example C114_nonvacuous : let v := fun n m => mkVec (Fd n (-1)) (Fd m (-1)) true : vec F in let pts := [v 0 0; v 8 0; v 2 3; v 0 8]%Z in
  Forall (on_grid (-1)) pts /\ (3 <= List.length pts)%nat /\ NoDup (map fpt pts) /\
  (forall a b c, In a pts -> In b pts -> In c pts -> fpt a <> fpt b -> fpt b <> fpt c -> fpt a <> fpt c -> ~ collinear (fpt a) (fpt b) (fpt c)).
Proof.
  intros v pts. split; [repeat constructor; apply Fd_grid; lia|]. split; [cbn; lia|].
  assert (V : forall n m, (Z.abs n < 2 ^ 53)%Z -> (Z.abs m < 2 ^ 53)%Z -> fpt (v n m) = (IZR n / 2, IZR m / 2)).
  { intros n m Hn Hm. unfold v, fpt. cbn [vx vy]. rewrite !Fd_exact by lia. reflexivity. }
  split.
  - unfold pts. cbn [map]. rewrite !V by lia. repeat constructor; cbn; intros K; repeat (destruct K as [K|K]; [injection K; lra|]); exact K.
  - intros a b c IA IB IC. cbn [pts In] in IA, IB, IC.
    destruct IA as [<-|[<-|[<-|[<-|[]]]]], IB as [<-|[<-|[<-|[<-|[]]]]], IC as [<-|[<-|[<-|[<-|[]]]]]; intros N1 N2 N3; try (exfalso; (now apply N1) || (now apply N2) || (now apply N3));
      rewrite !V by lia; unfold collinear, cross, psub, px, py; cbn [fst snd]; lra.
Qed.
