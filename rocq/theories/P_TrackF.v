(** * P_TrackF: following a moving object cycle by cycle in doubles (C188) *)
From Coq Require Import ZArith List Bool String Reals Lra Lia Psatz.
From Flocq Require Import Core BinarySingleNaN.
From Verif Require Import Base Types NumR NumF R_Tac Spec Spec2 Abs M_Angle M_Vector M_Soccer
  L_Angle P_Vector L_Float P_Float P_Robust P_VecF P_Hull2 P_LineF P_MatF P_Soccer P_SoccerF.
Import ListNotations.
Local Open Scope R_scope.

(** ** Specification: one simulator cycle after another, exactly.  In a cycle
    the object may be accelerated, then moves by its velocity, then its
    velocity decays. *)
Definition pushed (a : option point) (v : point) : point := match a with None => v | Some a => (px v + px a, py v + py a) end.
Fixpoint track (accs : list (option point)) (p v : point) (d : R) : point * point :=
  match accs with
  | [] => (p, v)
  | a :: r => let w := pushed a v in track r (px p + px w, py p + py w) (d * px w, d * py w) d
  end.
(** speeds at most c and positions at most b along each axis, in every cycle *)
Fixpoint stays (c b : R) (accs : list (option point)) (p v : point) (d : R) : Prop :=
  match accs with
  | [] => True
  | a :: r => let w := pushed a v in let q := (px p + px w, py p + py w) in
    Rabs (px w) <= c /\ Rabs (py w) <= c /\ Rabs (px q) <= b /\ Rabs (py q) <= b /\ stays c b r q (d * px w, d * py w) d
  end.
(** The user's loop: vel += acc (if any); pos += vel; vel *= decay *)
Fixpoint simulate {T} `{Num T} (accs : list (option (vec T))) (pos vel : vec T) (decay : T) : vec T * vec T :=
  match accs with
  | [] => (pos, vel)
  | a :: r => let w := match a with None => vel | Some a => Vector2D_iadd vel a end in simulate r (Vector2D_iadd pos w) (Vector2D_imul w decay) decay
  end.
Definition acc_point (a : option (vec F)) : option point := option_map fpt a.
Definition acc_finite (a : option (vec F)) : Prop := match a with None => True | Some a => is_finite (vx a) = true /\ is_finite (vy a) = true end.

(** ** One axis of one cycle *)
Lemma rnd_step j x X t : (-1000 <= j)%Z -> Rabs X <= bpow radix2 (j - 1) -> Rabs (x - X) <= t -> t <= bpow radix2 (j - 1) ->
  Rabs (rnd64 x - X) <= t + bpow radix2 (j - 54) /\ Rabs (rnd64 x) <= bpow radix2 j.
Proof.
  intros Hj BX E T. assert (EJ : bpow radix2 j = 2 * bpow radix2 (j - 1)) by (replace j with (1 + (j - 1))%Z at 1 by lia; apply bp2).
  assert (B : Rabs x <= bpow radix2 j). { rewrite EJ. replace x with (X + (x - X)) by ring. eapply Rle_trans; [apply Rabs_triang|]. lra. }
  destruct (rnd_err x j Hj B) as [R1 R2]. split; [|exact R2]. replace (rnd64 x - X) with ((rnd64 x - x) + (x - X)) by ring. eapply Rle_trans; [apply Rabs_triang|]. lra.
Qed.
Lemma axis_add j (v a : F) W t : (-900 <= j <= 900)%Z -> is_finite v = true -> is_finite a = true -> Rabs W <= bpow radix2 (j - 1) -> Rabs (B2R v + B2R a - W) <= t -> t <= bpow radix2 (j - 1) ->
  is_finite (Bplus mode_NE v a) = true /\ Rabs (B2R (Bplus mode_NE v a) - W) <= t + bpow radix2 (j - 54).
Proof.
  intros Hj V A BW E T. destruct (rnd_step j _ W t ltac:(lia) BW E T) as [R1 R2]. destruct (F_add v a V A) as [S1 S2]; [apply (finite_lt j); [lia|exact R2]|]. rewrite S1. now split.
Qed.
Lemma axis_mul j (w d : F) W t : (-900 <= j <= 900)%Z -> is_finite w = true -> is_finite d = true -> 0 <= B2R d <= 1 -> Rabs W <= bpow radix2 (j - 1) -> Rabs (B2R w - W) <= t -> t <= bpow radix2 (j - 1) ->
  is_finite (Bmult mode_NE w d) = true /\ Rabs (B2R (Bmult mode_NE w d) - B2R d * W) <= t + bpow radix2 (j - 54).
Proof.
  intros Hj Fw Fd D BW E T. assert (E' : Rabs (B2R w * B2R d - B2R d * W) <= t).
  { replace (B2R w * B2R d - B2R d * W) with (B2R d * (B2R w - W)) by ring. rewrite Rabs_mult, Rabs_pos_eq by lra. pose proof (Rabs_pos (B2R w - W)). apply Rle_trans with (1 * Rabs (B2R w - W)); [apply Rmult_le_compat_r; lra|lra]. }
  assert (BW' : Rabs (B2R d * W) <= bpow radix2 (j - 1)).
  { rewrite Rabs_mult, Rabs_pos_eq by lra. pose proof (Rabs_pos W). apply Rle_trans with (1 * Rabs W); [apply Rmult_le_compat_r; lra|lra]. }
  destruct (rnd_step j _ _ t ltac:(lia) BW' E' T) as [R1 R2]. destruct (F_mul w d Fw Fd) as [S1 S2]; [apply (finite_lt j); [lia|exact R2]|]. rewrite S1. now split.
Qed.
(** the errors after n cycles: n 2^(k-53) for a velocity, n 2^(m-54) + n^2 2^(k-54) for a position *)
Lemma axis_cycle k m n (p v a d : F) (P V A : R) : (-900 <= k <= m)%Z -> (m <= 900)%Z -> 0 <= n -> n + 1 <= 67108864 -> is_finite p = true -> is_finite v = true -> is_finite d = true -> 0 <= B2R d <= 1 ->
  let ek := bpow radix2 (k - 54) in let em := bpow radix2 (m - 54) in
  Rabs (B2R v - V) <= 2 * n * ek -> Rabs (B2R p - P) <= n * em + n * n * ek ->
  forall w : F, is_finite w = true -> Rabs (B2R w - (V + A)) <= (2 * n + 1) * ek -> Rabs (V + A) <= bpow radix2 (k - 1) -> Rabs (P + (V + A)) <= bpow radix2 (m - 1) ->
  let q := Bplus mode_NE p w in let v' := Bmult mode_NE w d in
  is_finite q = true /\ is_finite v' = true /\ Rabs (B2R v' - B2R d * (V + A)) <= 2 * (n + 1) * ek /\ Rabs (B2R q - (P + (V + A))) <= (n + 1) * em + (n + 1) * (n + 1) * ek.
Proof.
  intros Hk Hm N0 N1 Fp Fv Fd D ek em EV EP w Fw EW BW BQ q v'. assert (PK : 0 < ek) by apply bpow_gt_0. assert (PM : 0 < em) by apply bpow_gt_0. assert (KM : ek <= em) by (apply bpow_le; lia).
  assert (HK : bpow radix2 (k - 1) = 9007199254740992 * ek) by (unfold ek; change 9007199254740992 with (bpow radix2 53); rewrite <- bpow_plus; f_equal; lia).
  assert (HM : bpow radix2 (m - 1) = 9007199254740992 * em) by (unfold em; change 9007199254740992 with (bpow radix2 53); rewrite <- bpow_plus; f_equal; lia).
  assert (NN : n * n <= 67108863 * 67108863) by (apply Rmult_le_compat; lra).
  destruct (axis_mul k w d (V + A) ((2 * n + 1) * ek) ltac:(lia) Fw Fd D BW EW) as [M1 M2]. { rewrite HK. apply Rmult_le_compat_r; lra. }
  assert (EQ : Rabs (B2R p + B2R w - (P + (V + A))) <= n * em + (n * n + 2 * n + 1) * ek).
  { replace (B2R p + B2R w - (P + (V + A))) with ((B2R p - P) + (B2R w - (V + A))) by ring. eapply Rle_trans; [apply Rabs_triang|]. lra. }
  destruct (axis_add m p w (P + (V + A)) (n * em + (n * n + 2 * n + 1) * ek) ltac:(lia) Fp Fw BQ EQ) as [Q1 Q2].
  { rewrite HM. assert ((n * n + 2 * n + 1) * ek <= (n * n + 2 * n + 1) * em) by (apply Rmult_le_compat_l; nra). assert ((n * n + 3 * n + 1) * em <= 9007199254740992 * em) by (apply Rmult_le_compat_r; lra). lra. }
  fold q in Q1, Q2. fold v' in M1, M2. fold ek in M2. fold em in Q2. split; [exact Q1|]. split; [exact M1|]. split; lra.
Qed.

(** ** C188: any history of cycles *)
Lemma track_err (L : libm) k m (d : F) : (-900 <= k <= m)%Z -> (m <= 900)%Z -> is_finite d = true -> 0 <= B2R d <= 1 ->
  forall accs n (p v : vec F) P V, Forall acc_finite accs -> INR (n + List.length accs) <= 67108864 ->
  coords_near (2 * INR n * bpow radix2 (k - 54)) v V -> coords_near (INR n * bpow radix2 (m - 54) + INR n * INR n * bpow radix2 (k - 54)) p P ->
  stays (bpow radix2 (k - 1)) (bpow radix2 (m - 1)) (map acc_point accs) P V (B2R d) ->
  let r := @simulate F (NumF L) accs p v d in let s := track (map acc_point accs) P V (B2R d) in let i := INR (n + List.length accs) in
  coords_near (i * bpow radix2 (m - 54) + i * i * bpow radix2 (k - 54)) (fst r) (fst s) /\ coords_near (2 * i * bpow radix2 (k - 54)) (snd r) (snd s).
Proof.
  intros Hk Hm Fd D. induction accs as [|a accs IH]; intros n p v P V FA HN EV EP ST.
  { cbn [List.length map simulate track fst snd]. rewrite Nat.add_0_r. now split. }
  cbn [simulate map track stays] in *. cbv zeta in ST. inversion FA as [|? ? FA1 FA2]; subst. cbn [List.length] in *. rewrite Nat.add_succ_r in *. rewrite <- Nat.add_succ_l in *.
  set (w := match a with None => v | Some a0 => @Vector2D_iadd F (NumF L) v a0 end). set (W := pushed (acc_point a) V) in *.
  destruct ST as (S1 & S2 & S3 & S4 & S5). unfold px, py in S3, S4. cbn [fst snd] in S3, S4. fold (px P) (py P) (px W) (py W) in S3, S4.
  destruct EV as (V1 & V2 & V3 & V4). destruct EP as (P1 & P2 & P3 & P4).
  assert (N0 : 0 <= INR n) by apply pos_INR. assert (N1 : INR n + 1 <= 67108864). { rewrite <- S_INR. eapply Rle_trans; [|exact HN]. apply le_INR. lia. }
  set (ek := bpow radix2 (k - 54)) in *. set (em := bpow radix2 (m - 54)) in *. assert (PK : 0 < ek) by apply bpow_gt_0.
  assert (HK : bpow radix2 (k - 1) = 9007199254740992 * ek) by (unfold ek; change 9007199254740992 with (bpow radix2 53); rewrite <- bpow_plus; f_equal; lia).
  assert (TK : 2 * INR n * ek <= bpow radix2 (k - 1)) by (rewrite HK; apply Rmult_le_compat_r; lra).
  assert (EW : coords_near ((2 * INR n + 1) * ek) w W).
  { unfold w, W. destruct a as [a|]; cbn [acc_point option_map pushed].
    - destruct FA1 as [A1 A2]. unfold Vector2D_iadd. cbn [nadd NumF]. unfold W, acc_point, option_map, pushed in S1, S2. unfold coords_near. cbn [vx vy px py fst snd] in *.
      destruct (axis_add k (vx v) (vx a) _ (2 * INR n * ek) ltac:(lia) V1 A1 S1) as [X1 X2]; [|exact TK|].
      { unfold fpt, px. cbn [fst]. replace (B2R (vx v) + B2R (vx a) - (fst V + B2R (vx a))) with (B2R (vx v) - px V) by (unfold px; ring). exact V3. }
      destruct (axis_add k (vy v) (vy a) _ (2 * INR n * ek) ltac:(lia) V2 A2 S2) as [Y1 Y2]; [|exact TK|].
      { unfold fpt, py. cbn [snd]. replace (B2R (vy v) + B2R (vy a) - (snd V + B2R (vy a))) with (B2R (vy v) - py V) by (unfold py; ring). exact V4. }
      split; [exact X1|]. split; [exact Y1|]. fold ek in X2, Y2. split; [|]; lra.
    - split; [exact V1|]. split; [exact V2|]. split; lra. }
  destruct EW as (W1 & W2 & W3 & W4).
  destruct (axis_cycle k m (INR n) (vx p) (vx v) (vx v) d (px P) (px V) (px W - px V) Hk Hm N0 N1 P1 V1 Fd D V3 P3 (vx w) W1) as (X1 & X2 & X3 & X4); try (replace (px V + (px W - px V)) with (px W) by ring; assumption).
  destruct (axis_cycle k m (INR n) (vy p) (vy v) (vy v) d (py P) (py V) (py W - py V) Hk Hm N0 N1 P2 V2 Fd D V4 P4 (vy w) W2) as (Y1 & Y2 & Y3 & Y4); try (replace (py V + (py W - py V)) with (py W) by ring; assumption).
  replace (px V + (px W - px V)) with (px W) in X3, X4 by ring. replace (py V + (py W - py V)) with (py W) in Y3, Y4 by ring.
  apply (IH (S n) (@Vector2D_iadd F (NumF L) p w) (@Vector2D_imul F (NumF L) w d) _ _ FA2 HN).
  - rewrite S_INR. split; [exact X2|]. split; [exact Y2|]. split; [exact X3|exact Y3].
  - rewrite S_INR. split; [exact X1|]. split; [exact Y1|]. split; [exact X4|exact Y4].
  - exact S5.
Qed.
Theorem C188_track_F : forall (L : libm) (k m : Z) (accs : list (option (vec F))) (pos vel : vec F) (decay : F), (-900 <= k <= m)%Z -> (m <= 900)%Z ->
  is_finite (vx pos) = true -> is_finite (vy pos) = true -> is_finite (vx vel) = true -> is_finite (vy vel) = true -> is_finite decay = true -> 0 <= B2R decay <= 1 -> Forall acc_finite accs ->
  let n := INR (List.length accs) in n <= 67108864 ->
  stays (bpow radix2 (k - 1)) (bpow radix2 (m - 1)) (map acc_point accs) (fpt pos) (fpt vel) (B2R decay) ->
  let r := @simulate F (NumF L) accs pos vel decay in let s := track (map acc_point accs) (fpt pos) (fpt vel) (B2R decay) in
  coords_near (n * bpow radix2 (m - 54) + n * n * bpow radix2 (k - 54)) (fst r) (fst s) /\ coords_near (n * bpow radix2 (k - 53)) (snd r) (snd s).
Proof.
  intros L k m accs pos vel decay Hk Hm P1 P2 V1 V2 Fd D FA n HN ST. assert (Z : forall v : vec F, is_finite (vx v) = true -> is_finite (vy v) = true -> forall t, t = 0 -> coords_near t v (fpt v)).
  { intros v X Y t ->. unfold coords_near, fpt, px, py. cbn [fst snd]. rewrite !Rminus_eq_0, Rabs_R0. repeat split; (assumption || lra). }
  assert (ZV : coords_near (2 * INR 0 * bpow radix2 (k - 54)) vel (fpt vel)) by (apply Z; [assumption|assumption|cbn [INR]; ring]).
  assert (ZP : coords_near (INR 0 * bpow radix2 (m - 54) + INR 0 * INR 0 * bpow radix2 (k - 54)) pos (fpt pos)) by (apply Z; [assumption|assumption|cbn [INR]; ring]).
  destruct (track_err L k m decay Hk Hm Fd D accs 0%nat pos vel _ _ FA HN ZV ZP ST) as [G1 G2].
  cbv zeta. split; [exact G1|]. replace (n * bpow radix2 (k - 53)) with (2 * n * bpow radix2 (k - 54)) by (replace (k - 53)%Z with (1 + (k - 54))%Z by lia; rewrite bp2; ring). exact G2.
Qed.

(** C188: without accelerations the loop ends where inertia_n_step_point says *)
Lemma track_coast n : forall p v d, fst (track (repeat None n) p v d) = coast n p v d.
Proof. induction n as [|n IH]; intros p v d; cbn [repeat track coast]; [reflexivity|]. cbv zeta. apply IH. Qed.
Lemma coast_stays c b d n : 0 <= d < 1 -> forall p v, Rabs (px v) <= c -> Rabs (py v) <= c ->
  Rabs (px p) + Rabs (px v) / (1 - d) <= b -> Rabs (py p) + Rabs (py v) / (1 - d) <= b -> stays c b (repeat None n) p v d.
Proof.
  intros Hd. assert (I : 0 < / (1 - d)) by (apply Rinv_0_lt_compat; lra). assert (IE : / (1 - d) = 1 + d * / (1 - d)) by (field; lra).
  assert (AX : forall x y, Rabs x + Rabs y / (1 - d) <= b -> Rabs (x + y) <= b /\ Rabs (x + y) + Rabs (d * y) / (1 - d) <= b).
  { intros x y H. rewrite Rabs_mult, (Rabs_pos_eq d) by lra. unfold Rdiv in *. rewrite IE in H. pose proof (Rabs_triang x y). pose proof (Rabs_pos y). assert (0 <= Rabs y * (d * / (1 - d))) by (apply Rmult_le_pos; [lra|]; apply Rmult_le_pos; lra).
    split; [lra|]. replace (d * Rabs y * / (1 - d)) with (Rabs y * (d * / (1 - d))) by ring. lra. }
  assert (DY : forall y, Rabs y <= c -> Rabs (d * y) <= c).
  { intros y H. rewrite Rabs_mult, (Rabs_pos_eq d) by lra. pose proof (Rabs_pos y). apply Rle_trans with (1 * Rabs y); [apply Rmult_le_compat_r; lra|lra]. }
  induction n as [|n IH]; intros p v C1 C2 B1 B2; cbn [repeat stays pushed]; [exact Logic.I|]. destruct (AX _ _ B1) as [X1 X2]. destruct (AX _ _ B2) as [Y1 Y2].
  split; [exact C1|]. split; [exact C2|]. split; [exact X1|]. split; [exact Y1|]. apply IH; unfold px, py in *; cbn [fst snd] in *; auto.
Qed.
Lemma acc_repeat n : map acc_point (repeat None n) = repeat None n.
Proof. induction n as [|n IH]; [reflexivity|]. cbn [repeat map]. now rewrite IH. Qed.
Theorem C188_coast_F : forall (L : libm) (g k : Z) (n : nat) (pos vel : vec F) (decay : F), pow_unit L -> (0 <= g <= 40)%Z -> (-200 <= k <= 200)%Z -> INR n <= 67108864 ->
  decay_ok g decay -> within k vel -> within (k + g) pos ->
  exists q, @inertia_n_step_point F (NumF L) pos vel (Z.of_nat n) decay = Ok q /\
    (let r := fst (@simulate F (NumF L) (repeat None n) pos vel decay) in
     is_finite (vx r) = true /\ is_finite (vy r) = true /\
     let e := INR n * bpow radix2 (k + g - 52) + INR n * INR n * bpow radix2 (k - 53) + bpow radix2 (k + 2 * g - 47) in
     Rabs (B2R (vx r) - B2R (vx q)) <= e /\ Rabs (B2R (vy r) - B2R (vy q)) <= e).
Proof.
  intros L g k n pos vel decay PU Hg Hk HN HD WV WP.
  assert (BN : (Z.of_nat n < 2 ^ 53)%Z). { assert (X : IZR (Z.of_nat n) <= 67108864) by (rewrite <- INR_IZR_INZ; exact HN). apply le_IZR in X. lia. }
  destruct (C147_coast_F L g k n pos vel (vx vel) decay PU Hg Hk BN HD WV WP) as (t & q & s & _ & Q1 & _ & _ & Q2 & _). { destruct WV as (A & _ & B & _). now split. }
  exists q. split; [exact Q1|]. destruct WV as (V1 & V2 & V3 & V4). destruct WP as (P1 & P2 & P3 & P4). destruct HD as [D1 D2]. pose proof (bpow_gt_0 radix2 (- g)) as PG.
  assert (IG : / (1 - B2R decay) <= bpow radix2 g). { replace (bpow radix2 g) with (/ bpow radix2 (- g)) by (rewrite <- bpow_opp; f_equal; lia). apply Rinv_le_contravar; lra. }
  assert (BG : forall x y, Rabs x <= bpow radix2 (k + g) -> Rabs y <= bpow radix2 k -> Rabs x + Rabs y / (1 - B2R decay) <= bpow radix2 (k + g + 2 - 1)).
  { intros x y HX HY. replace (k + g + 2 - 1)%Z with (1 + (k + g))%Z by lia. rewrite bp2. assert (Rabs y / (1 - B2R decay) <= bpow radix2 (k + g)); [|lra]. rewrite bpow_plus. apply Rmult_le_compat; [apply Rabs_pos|left; apply Rinv_0_lt_compat; lra|exact HY|exact IG]. }
  assert (ST : stays (bpow radix2 (k + 1 - 1)) (bpow radix2 (k + g + 2 - 1)) (map acc_point (repeat None n)) (fpt pos) (fpt vel) (B2R decay)).
  { rewrite acc_repeat. replace (k + 1 - 1)%Z with k by lia. apply coast_stays; [lra|exact V3|exact V4|apply BG; [exact P3|exact V3]|apply BG; [exact P4|exact V4]]. }
  destruct (C188_track_F L (k + 1) (k + g + 2) (repeat None n) pos vel decay) as [G _]; try assumption; try lia.
  { lra. }
  { apply Forall_forall. intros a Ha. apply repeat_spec in Ha. subst a. exact Logic.I. }
  { rewrite repeat_length. exact HN. }
  rewrite repeat_length, acc_repeat, track_coast in G. destruct G as (G1 & G2 & G3 & G4). destruct Q2 as (_ & _ & Q3 & Q4). cbv zeta. split; [exact G1|]. split; [exact G2|].
  replace (k + g + 2 - 54)%Z with (k + g - 52)%Z in G3, G4 by lia. replace (k + 1 - 54)%Z with (k - 53)%Z in G3, G4 by lia.
  apply Rabs_le_inv in G3, G4, Q3, Q4. split; apply Rabs_le; lra.
Qed.

(** ** A case meeting the hypotheses: two cycles, the second one without acceleration *)
Example C188_nonvacuous : stays 2 8 (map acc_point [Some (fv 1 0); None]) (fpt (fv 0 0)) (fpt (fv 1 2)) (/ 2) /\
  track (map acc_point [Some (fv 1 0); None]) (fpt (fv 0 0)) (fpt (fv 1 2)) (/ 2) = ((3, 3), (/ 2, / 2)) /\
  Forall acc_finite [Some (fv 1 0); None] /\ decay_ok 1 (Fd 1 (-1)) /\ within 1 (fv 1 2) /\ within (1 + 1) (fv 0 0).
Proof.
  assert (E : forall x y, (Z.abs x <= 4)%Z -> (Z.abs y <= 4)%Z -> fpt (fv x y) = (IZR x, IZR y)).
  { intros x y X Y. unfold fpt, fv. cbn [vx vy]. now rewrite (proj1 (F_of_Z_exact x ltac:(lia))), (proj1 (F_of_Z_exact y ltac:(lia))). }
  cbn [map acc_point option_map]. rewrite !E by lia. cbn [stays track pushed px py fst snd].
  assert (A : forall x c, - c <= x <= c -> Rabs x <= c) by (intros; now apply Rabs_le).
  split; [repeat split; apply A; lra|]. split; [repeat f_equal; lra|]. split.
  { constructor; [|constructor; [exact Logic.I|constructor]]. split; apply F_of_Z_exact; reflexivity. }
  split; [|split; apply within_fv; lia]. split; [reflexivity|]. rewrite Fd_exact by (cbn; lia). cbn. lra.
Qed.
