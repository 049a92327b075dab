(** * P_Sector: properties C65-C66 of Sector2D *)
From Coq Require Import ZArith List Bool String Reals Lra Lia Psatz.
From Flocq Require Import Core.
From Verif Require Import Base Types NumR R_Tac Spec Abs M_Angle M_Vector M_Sector
  L_Angle L_Trig P_Angle P_Vector P_Circle P_Rect.
Import ListNotations.
Local Open Scope R_scope.

(** [d] is the direction of [u] in degrees; a vector inside the 1e-6 box has direction 0. *)
Definition has_dir (u : point) (d : R) : Prop :=
  -180 < d <= 180 /\ (tiny (px u) (py u) -> d = 0) /\
  (~ tiny (px u) (py u) -> u = (norm u * cos (rad d), norm u * sin (rad d))).
Lemma has_dir_unique u d d' : has_dir u d -> has_dir u d' -> d = d'.
Proof.
  intros (R1 & T1 & D1) (R2 & T2 & D2).
  assert (DT : tiny (px u) (py u) \/ ~ tiny (px u) (py u)).
  { unfold tiny. destruct (Rlt_dec (Rabs (px u)) (1/1000000)); destruct (Rlt_dec (Rabs (py u)) (1/1000000)); tauto. }
  destruct DT as [T|T]; [rewrite T1, T2; easy|].
  specialize (D1 T). specialize (D2 T).
  assert (N : norm u <> 0).
  { intros E. apply norm_zero in E. apply T. destruct E as [-> ->]. unfold tiny. rewrite Rabs_R0. lra. }
  assert (E : (norm u * cos (rad d), norm u * sin (rad d)) = (norm u * cos (rad d'), norm u * sin (rad d'))) by congruence.
  injection E as E1 E2. apply Rmult_eq_reg_l in E1; [|easy]. apply Rmult_eq_reg_l in E2; [|easy].
  apply cong360_small; [|apply Rabs_def1; lra]. now apply cos_sin_eq_cong.
Qed.
Lemma turn_cong a a' b b' t : cong360 a a' -> cong360 b b' -> turn a b t -> turn a' b' t.
Proof.
  intros Ha Hb [Ht Hc]. split; [easy|]. eapply cong360_trans; [|exact Hb]. eapply cong360_trans; [|exact Hc].
  apply cong360_add; [now apply cong360_sym|apply cong360_refl].
Qed.
(** The radii that count: a positive [min_r] is ignored, a negative one acts as
    an inner radius of that length. *)
Definition in_ring (mn mx d : R) : Prop := Rmax 0 (- mn) <= d <= Rabs (Rmax mn mx).
Lemma ring_R mn mx (u : point) :
  Rle_bool (Rmin 0 mn * Rmin 0 mn) (norm2 u) && Rle_bool (norm2 u) (Rmax mn mx * Rmax mn mx) = true <-> in_ring mn mx (norm u).
Proof.
  rewrite andb_true_iff, !Rle_bool_iff. unfold in_ring. pose proof (norm_nonneg u) as N. pose proof (norm_sq u) as S.
  assert (A : Rmax 0 (- mn) * Rmax 0 (- mn) = Rmin 0 mn * Rmin 0 mn).
  { unfold Rmax, Rmin. destruct (Rle_dec 0 (- mn)), (Rle_dec 0 mn); try lra. replace mn with 0 by lra. ring. }
  assert (B : Rabs (Rmax mn mx) * Rabs (Rmax mn mx) = Rmax mn mx * Rmax mn mx).
  { rewrite <- Rabs_mult. apply Rabs_pos_eq. apply Rle_0_sqr. }
  assert (P1 : 0 <= Rmax 0 (- mn)) by apply Rmax_l. pose proof (Rabs_pos (Rmax mn mx)) as P2.
  rewrite <- A, <- B. rewrite <- S.
  set (a := Rmax 0 (- mn)) in *. set (b := Rabs (Rmax mn mx)) in *. set (n := norm u) in *. clearbody a b n. clear -N P1 P2.
  split; intros [H1 H2]; split.
  - destruct (Rle_dec a n); [easy|]. exfalso. assert (n * n < a * a); [apply Rmult_le_0_lt_compat; lra|lra].
  - destruct (Rle_dec n b); [easy|]. exfalso. assert (b * b < n * n); [apply Rmult_le_0_lt_compat; lra|lra].
  - apply Rmult_le_compat; lra.
  - apply Rmult_le_compat; lra.
Qed.
Lemma has_dir_th (c p : vec R) : has_dir (psub (pt p) (pt c)) (atan2_deg (vy p - vy c) (vx p - vx c)).
Proof.
  destruct (C09_atan2_R (vy p - vy c) (vx p - vx c)) as (H1 & H2 & H3). split; [easy|]. split; [exact H2|].
  intros T. apply H3 in T. destruct T as [T1 T2]. unfold psub, pt; cbn [px py fst snd]. apply point_eq; cbn [px py fst snd]; easy.
Qed.

Lemma sector_R c mn mx st en : Sector2D_init c mn mx st en =
  Ok (mkSector (Vector2D_of_vec c) (Rmin 0 mn) (Rmax mn mx) (mkAngle (nrm (arg_deg st))) (mkAngle (nrm (arg_deg en)))).
Proof. unfold Sector2D_init. rewrite !arg_R. cbn [bind]. rewrite nmax_Rmax. rewrite <- nmin_Rmin. reflexivity. Qed.

(** ** C65 *)
Theorem C65_contains_R : forall (c p : vec R) (mn mx : R) (st en : ang_arg R),
  exists s b d, Sector2D_init c mn mx st en = Ok s /\ Sector2D_contains s p = Ok b /\
    has_dir (psub (pt p) (pt c)) d /\
    (* the regular case *)
    (~ (a_degree (sec_start s) = -180 /\ (a_degree (sec_end s) = 180 \/ d = 180)) ->
      (b = true <-> in_ring mn mx (edist (pt p) (pt c)) /\
         exists tp te, turn (arg_deg st) d tp /\ turn (arg_deg st) (arg_deg en) te /\ tp <= te)) /\
    (* from -180 to 180 *)
    (a_degree (sec_start s) = -180 -> a_degree (sec_end s) = 180 ->
      (b = true <-> in_ring mn mx (edist (pt p) (pt c)) /\ d <> 0)) /\
    (* from -180 to somewhere else, for a point in direction 180 *)
    (a_degree (sec_start s) = -180 -> a_degree (sec_end s) <> 180 -> d = 180 -> b = false).
Proof.
  intros c p mn mx st en. rewrite sector_R.
  set (ds := nrm (arg_deg st)). set (de := nrm (arg_deg en)). set (d := atan2_deg (vy p - vy c) (vx p - vx c)).
  pose proof (has_dir_th c p) as HD. fold d in HD.
  exists (mkSector (Vector2D_of_vec c) (Rmin 0 mn) (Rmax mn mx) (mkAngle ds) (mkAngle de)).
  unfold Sector2D_contains. cbn [sec_min_r sec_max_r sec_start sec_end sec_center].
  rewrite th_R. cbn [bind].
  change (vy (Vector2D_sub p (Vector2D_of_vec c))) with (vy p - vy c). change (vx (Vector2D_sub p (Vector2D_of_vec c))) with (vx p - vx c). fold d.
  rnum.
  match goal with |- context [Rle_bool _ (Vector2D_r2 ?x)] => change (Vector2D_r2 x) with (norm2 (psub (pt p) (pt c))) end.
  pose proof (ring_R mn mx (psub (pt p) (pt c))) as RR. fold (edist (pt p) (pt c)) in RR.
  destruct (C07_is_within_R (mkAngle d) (mkAngle ds) (mkAngle de)) as (w & EW & W1 & W2 & W3 & _).
  1: destruct HD as [HD _]; unfold in_range; cbn; lra.
  1,2: apply nrm_range.
  cbn [a_degree] in *.
  destruct (Rle_bool _ _ && Rle_bool _ _).
  - exists w, d. split; [reflexivity|]. split; [exact EW|]. split; [exact HD|]. split; [|split].
    + intros NE. rewrite W1; try tauto; [|intros [K _]; destruct HD; lra].
      split.
      * intros (tx & tr & A & B & C). split; [tauto|]. exists tx, tr. split; [|split; [|easy]]; eapply turn_cong; try eassumption; try apply cong360_refl; apply nrm_cong.
      * intros (_ & tx & tr & A & B & C). exists tx, tr. split; [|split; [|easy]]; eapply turn_cong; try eassumption; try apply cong360_refl; apply cong360_sym, nrm_cong.
    + intros A B. rewrite (W2 A B). tauto.
    + intros A B C. apply W3; easy.
  - exists false, d. split; [reflexivity|]. split; [reflexivity|]. split; [exact HD|].
    split; [|split]; [| |easy]; intros; (split; [discriminate|]); intros [K _]; apply RR in K; discriminate.
Qed.
(** A sector asked for as the whole turn [-180,180] does not contain its
    points straight to the right of the center. *)
Theorem C65_full_turn_refuted : exists (c p : vec R) (s : sector R),
  Sector2D_init c 0 2 (AN (-180)) (AN 180) = Ok s /\ edist (pt c) (pt p) = 1 /\ Sector2D_contains s p = Ok false.
Proof.
  exists (mkVec 0 0 true), (mkVec 1 0 true).
  destruct (C65_contains_R (mkVec 0 0 true) (mkVec 1 0 true) 0 2 (AN (-180)) (AN 180)) as (s & b & d & E & Hb & HD & _ & H & _).
  exists s. split; [easy|]. split. { unfold edist, norm, norm2; cbn. replace (_ + _) with 1 by ring. apply sqrt_1. }
  rewrite Hb. f_equal.
  rewrite sector_R in E. injection E as <-. cbn [sec_start sec_end a_degree arg_deg] in H.
  rewrite !nrm_id in H by lra. specialize (H eq_refl eq_refl).
  assert (d = 0).
  { apply (has_dir_unique _ _ _ HD). split; [lra|]. split; [easy|]. intros _. unfold rad. rewrite Rmult_0_l, cos_0, sin_0.
    apply point_eq; cbn; unfold norm, norm2; cbn; replace (_ + _) with 1 by ring; rewrite sqrt_1; lra. }
  destruct b; [|easy]. destruct (proj1 H eq_refl) as [_ K]. easy.
Qed.

(** ** C66 *)
Theorem C66_radii_R : forall (c : vec R) (mn mx : R) (st en : ang_arg R),
  exists s t, Sector2D_init c mn mx st en = Ok s /\ turn (arg_deg st) (arg_deg en) t /\
    Sector2D_radius_min s = Rmin 0 mn /\ Sector2D_radius_max s = Rmin 0 mn /\
    Sector2D_area s = Ok (PI * (Rmax mn mx * Rmax mn mx - Rmin 0 mn * Rmin 0 mn) * (t / 360)) /\
    Sector2D_circumference_min s = Ok (2 * PI * Rmin 0 mn * (t / 360)) /\
    Sector2D_circumference_max s = Ok (2 * PI * Rmax mn mx * (t / 360)) /\
    (* a sector is equal to itself only if its radii (nearly) coincide *)
    (Sector2D_eq s s = Ok true <-> Rabs (Rmax mn mx - Rmin 0 mn) < 1/1000000).
Proof.
  intros c mn mx st en. rewrite sector_R.
  set (ds := nrm (arg_deg st)). set (de := nrm (arg_deg en)).
  exists (mkSector (Vector2D_of_vec c) (Rmin 0 mn) (Rmax mn mx) (mkAngle ds) (mkAngle de)).
  set (s := mkSector _ _ _ _ _).
  assert (DIV : exists t, Sector2D_div s = Ok t /\ turn (arg_deg st) (arg_deg en) t).
  { unfold Sector2D_div. destruct (C04_arith_R (mkAngle de) (AA (mkAngle ds))) as (_ & (b & Eb & Rb & Cb) & _).
    cbn [sec_end sec_start s]. rewrite Eb. cbn [bind]. unfold AngleDeg_degree_. rnum. cbn [a_degree arg_deg] in Cb.
    assert (CC : cong360 (arg_deg st + a_degree b) (arg_deg en)).
    { eapply cong360_trans; [apply cong360_add; [apply cong360_sym, nrm_cong|exact Cb]|]. fold ds.
      replace (ds + (de - ds)) with de by ring. apply nrm_cong. }
    rcasesp; eexists; (split; [reflexivity|]); (split; [lra|]); [|exact CC].
    eapply cong360_trans; [|exact CC]. exists 1%Z. lra. }
  destruct DIV as (t & ED & HT). exists t. split; [reflexivity|]. split; [exact HT|].
  unfold Sector2D_radius_min, Sector2D_radius_max, Sector2D_area, Sector2D_circumference_min, Sector2D_circumference_max.
  rewrite ED. cbn [bind sec_min_r sec_max_r s]. rnum. rewrite !Rdiv_py_ok by lra. cbn [bind].
  split; [easy|]. split; [easy|]. split; [f_equal; field|]. split; [f_equal; field|]. split; [f_equal; field|].
  assert (MM : forall x : R, x - x = 0) by (intros; ring).
  unfold Sector2D_eq, Sector2D_radius_min, Sector2D_radius_max, Vector2D_equals_weakly, AngleDeg_eq, ang_num. cbn [sec_center sec_start sec_end s].
  rewrite !degree_in by apply nrm_range. cbn [bind a_degree]. rnum.
  rewrite ?MM. rewrite !Rabs_R0. rewrite !Rlt_bool_true by lra. cbn [andb].
  cbn [sec_min_r sec_max_r s]. rewrite ?MM, ?Rabs_R0. rewrite ?(Rlt_bool_true 0 (1/1000000)) by lra. cbn [andb].
  rewrite <- Rlt_bool_iff. split; [now intros [= <-]|now intros ->].
Qed.
(** e.g. a disc sector of radius 2 is not equal to itself *)
Example C66_eq_not_reflexive : exists (c : vec R) (s : sector R),
  Sector2D_init c 0 2 (AN 0) (AN 90) = Ok s /\ Sector2D_eq s s <> Ok true.
Proof.
  exists (mkVec 0 0 true). destruct (C66_radii_R (mkVec 0 0 true) 0 2 (AN 0) (AN 90)) as (s & t & E & _ & _ & _ & _ & _ & _ & H).
  exists s. split; [easy|]. intros K. apply H in K. rewrite Rmax_right, Rmin_left, Rabs_pos_eq in K by lra. lra.
Qed.
