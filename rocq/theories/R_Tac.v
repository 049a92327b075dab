(** * R_Tac: tactics and basic facts for the real instance *)
From Coq Require Import ZArith List Bool Reals Lra Lia Psatz.
From Flocq Require Import Core.
From Verif Require Import Base NumR.
Local Open Scope R_scope.

(** Unfold the class projections at the real instance (no zeta). *)
Ltac rnum :=
  cbv beta iota delta
    [NumR nlit nofZ nPI nadd nsub nmul nneg nabs ndiv nltb nleb neqb nsqrt npowi
     nfmod nmod nsin ncos ntan nasin nacos natan natan2 nexp nlog ntrunc Rlit
     EPSILON CALC_ERROR ERROR_VALUE nmin nmax bind].
Ltac rnum_in H :=
  cbv beta iota delta
    [NumR nlit nofZ nPI nadd nsub nmul nneg nabs ndiv nltb nleb neqb nsqrt npowi
     nfmod nmod nsin ncos ntan nasin nacos natan natan2 nexp nlog ntrunc Rlit
     EPSILON CALC_ERROR ERROR_VALUE nmin nmax bind] in H.

(** Boolean comparisons as propositions. *)
Lemma Rlt_bool_iff x y : Rlt_bool x y = true <-> x < y.
Proof. case Rlt_bool_spec; intros; split; intros; try lra; discriminate. Qed.
Lemma Rle_bool_iff x y : Rle_bool x y = true <-> x <= y.
Proof. case Rle_bool_spec; intros; split; intros; try lra; discriminate. Qed.
Lemma Req_bool_iff x y : Req_bool x y = true <-> x = y.
Proof. case Req_bool_spec; intros; split; intros; try lra; try discriminate; contradiction. Qed.

(** Case split on one boolean comparison in the goal. *)
Ltac rcase1 :=
  match goal with
  | |- context [Rlt_bool ?x ?y] =>
      let H := fresh "Hlt" in destruct (Rlt_bool_spec x y) as [H|H]
  | |- context [Rle_bool ?x ?y] =>
      let H := fresh "Hle" in destruct (Rle_bool_spec x y) as [H|H]
  | |- context [Req_bool ?x ?y] =>
      let H := fresh "Heq" in destruct (Req_bool_spec x y) as [H|H]
  end.
Ltac rcases := repeat (rcase1; cbn [andb orb negb]).

Lemma DEG2RAD_R : (DEG2RAD : R) = PI / 180.
Proof.
  unfold DEG2RAD; rnum; unfold Rdiv_py.
  destruct (Req_bool_spec 180 0); [lra|]. reflexivity.
Qed.

Lemma RAD2DEG_R : (RAD2DEG : R) = 180 / PI.
Proof.
  unfold RAD2DEG; rnum; unfold Rdiv_py.
  destruct (Req_bool_spec PI 0) as [H|H]; [|reflexivity].
  pose proof PI_RGT_0; lra.
Qed.

Lemma Rdiv_py_ok x y : y <> 0 -> Rdiv_py x y = Ok (x / y).
Proof. unfold Rdiv_py; intros; case Req_bool_spec; intros; [contradiction|easy]. Qed.
Lemma Rsqrt_py_ok x : 0 <= x -> Rsqrt_py x = Ok (sqrt x).
Proof. unfold Rsqrt_py; intros; case Rlt_bool_spec; intros; [lra|easy]. Qed.
Lemma Rpowi_py_2 x : Rpowi_py x 2 = Ok (x * x).
Proof. unfold Rpowi_py; simpl; repeat f_equal; ring. Qed.
Lemma Rpowi_py_nat x (n : nat) : Rpowi_py x (Z.of_nat n) = Ok (x ^ n).
Proof.
  unfold Rpowi_py. replace (Z.ltb (Z.of_nat n) 0) with false.
  2:{ symmetry; apply Z.ltb_ge; lia. } simpl. f_equal. now rewrite pow_powerRZ.
Qed.

(** [lra] after splitting the disjunctions in the context and trying the
    disjuncts of the goal. *)
Ltac dhyps :=
  repeat match goal with
  | H : _ /\ _ |- _ => destruct H
  | H : _ \/ _ |- _ => destruct H
  end.
Ltac dgoal :=
  first [ lra | split; dgoal | left; dgoal | right; dgoal ].
Ltac dlra := dhyps; try (exfalso; lra); dgoal.

(** Case splits that discard contradictory branches at once. *)
Ltac rcasesp := repeat (rcase1; try (exfalso; lra); cbn [andb orb negb]).
