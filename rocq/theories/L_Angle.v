(** * L_Angle: facts about angles over the reals *)
From Coq Require Import ZArith List Bool String Reals Lra Lia Psatz.
From Flocq Require Import Core.
From Verif Require Import Base Types NumR R_Tac Spec M_Angle.
Import ListNotations.
Local Open Scope R_scope.

Lemma cong360_refl x : cong360 x x.
Proof. exists 0%Z; lra. Qed.
Lemma cong360_sym x y : cong360 x y -> cong360 y x.
Proof. intros [k ->]; exists (-k)%Z; rewrite opp_IZR; lra. Qed.
Lemma cong360_trans x y z : cong360 x y -> cong360 y z -> cong360 x z.
Proof. intros [k ->] [m ->]; exists (k+m)%Z; rewrite plus_IZR; lra. Qed.
Lemma cong360_add x y u v : cong360 x y -> cong360 u v -> cong360 (x+u) (y+v).
Proof. intros [k ->] [m ->]; exists (k+m)%Z; rewrite plus_IZR; lra. Qed.
Lemma cong360_opp x y : cong360 x y -> cong360 (-x) (-y).
Proof. intros [k ->]; exists (-k)%Z; rewrite opp_IZR; lra. Qed.
Lemma cong360_sub x y u v : cong360 x y -> cong360 u v -> cong360 (x-u) (y-v).
Proof. intros; apply cong360_add; auto using cong360_opp. Qed.
Lemma cong360_small x y : cong360 x y -> Rabs (x - y) < 360 -> x = y.
Proof.
  intros [k ->] H. replace (y + 360 * IZR k - y) with (360 * IZR k) in H by ring.
  assert (k = 0%Z) as ->; [|lra].
  rewrite Rabs_mult, Rabs_pos_eq, <- abs_IZR in H by lra.
  assert (IZR (Z.abs k) < 1) as H1 by lra. apply lt_IZR in H1. lia.
Qed.

(** ** fmod and normalisation *)
Lemma trunc_frac y : 0 <= y -> 0 <= y - IZR (Ztrunc y) < 1.
Proof.
  intros Hy. rewrite Ztrunc_floor by easy.
  pose proof (Zfloor_lb y); pose proof (Zfloor_ub y); lra.
Qed.
Lemma trunc_frac_neg y : y <= 0 -> -1 < y - IZR (Ztrunc y) <= 0.
Proof.
  intros Hy. rewrite Ztrunc_ceil by easy. unfold Zceil. rewrite opp_IZR.
  pose proof (Zfloor_lb (-y)); pose proof (Zfloor_ub (-y)); lra.
Qed.

Lemma normal_R x : exists d, AngleDeg_normal x = Ok d /\ -180 <= d <= 180 /\
  cong360 d x /\ (-180 <= x <= 180 -> d = x).
Proof.
  unfold AngleDeg_normal; rnum; unfold Rfmod_py.
  rewrite Req_bool_false by lra.
  set (q := Ztrunc (x / 360)).
  assert (Hq : 360 < x -> 0 <= x - 360 * IZR q < 360).
  { intros. assert (0 <= x/360) by lra. pose proof (trunc_frac _ H0). fold q in H1. lra. }
  assert (Hq' : x < -360 -> -360 < x - 360 * IZR q <= 0).
  { intros. assert (x/360 <= 0) by lra. pose proof (trunc_frac_neg _ H0). fold q in H1. lra. }
  assert (C0 : cong360 (x - 360 * IZR q) x).
  { exists (-q)%Z. rewrite opp_IZR. lra. }
  assert (CU : forall d, cong360 d x -> cong360 (d + 360) x).
  { intros d [k ->]; exists (k+1)%Z; rewrite plus_IZR; lra. }
  assert (CD : forall d, cong360 d x -> cong360 (d - 360) x).
  { intros d [k ->]; exists (k-1)%Z; rewrite minus_IZR; lra. }
  pose proof (cong360_refl x).
  rcases; eexists; (split; [reflexivity|]);
  repeat match goal with H : context [x - 360 * IZR q] |- _ =>
    match type of H with cong360 _ _ => fail 1 | _ => revert H end end;
  (split; [|split]); intros; auto; try lra.
Qed.

(** The normalised degree *)
Definition nrm (x : R) : R := match AngleDeg_normal x with Ok d => d | Raise _ => 0 end.
Lemma normal_nrm x : AngleDeg_normal x = Ok (nrm x).
Proof. unfold nrm; destruct (normal_R x) as [d [-> _]]; easy. Qed.
Lemma nrm_range x : -180 <= nrm x <= 180.
Proof. unfold nrm; destruct (normal_R x) as [d [-> [H _]]]; easy. Qed.
Lemma nrm_cong x : cong360 (nrm x) x.
Proof. unfold nrm; destruct (normal_R x) as [d [-> [_ [H _]]]]; easy. Qed.
Lemma nrm_id x : -180 <= x <= 180 -> nrm x = x.
Proof. unfold nrm; destruct (normal_R x) as [d [-> [_ [_ H]]]]; easy. Qed.
Lemma nrm_nrm x : nrm (nrm x) = nrm x.
Proof. apply nrm_id, nrm_range. Qed.

Definition in_range (a : angle R) : Prop := -180 <= a_degree a <= 180.

Lemma of_num_R x : AngleDeg_of_num x = Ok (mkAngle (nrm x)).
Proof. unfold AngleDeg_of_num; now rewrite normal_nrm. Qed.
Lemma degree_R a : AngleDeg_degree a = Ok (nrm (a_degree a)).
Proof. unfold AngleDeg_degree; now rewrite of_num_R. Qed.
Lemma degree_in a : in_range a -> AngleDeg_degree a = Ok (a_degree a).
Proof. intros H; now rewrite degree_R, nrm_id. Qed.
Lemma of_angle_R a : AngleDeg_of_angle a = Ok (mkAngle (nrm (a_degree a))).
Proof. unfold AngleDeg_of_angle; rewrite degree_R; cbn; now rewrite of_num_R, nrm_nrm. Qed.

(** The angle denoted by an angle-or-number argument. *)
Definition arg_deg (x : ang_arg R) : R :=
  match x with AA a => a_degree a | AN x => x end.
Definition arg_ok (x : ang_arg R) : Prop :=
  match x with AA a => in_range a | AN _ => True end.

Lemma to_angle_R x : exists a, to_angle x = Ok a /\ cong360 (a_degree a) (arg_deg x) /\
   (arg_ok x -> in_range a).
Proof.
  destruct x as [a|x]; cbn.
  - exists a; repeat split; auto using cong360_refl; apply H.
  - rewrite of_num_R. exists (mkAngle (nrm x)); split; [easy|]. cbn. split.
    apply nrm_cong. intros _; apply nrm_range.
Qed.
Lemma ang_num_R x : exists d, ang_num x = Ok d /\ cong360 d (arg_deg x).
Proof.
  destruct x as [a|x]; cbn.
  - rewrite degree_R. eexists; split; [reflexivity|apply nrm_cong].
  - eexists; split; [reflexivity|apply cong360_refl].
Qed.
