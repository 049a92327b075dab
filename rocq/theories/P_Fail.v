(** * P_Fail: an angle after calls that raised (C192) *)
From Coq Require Import ZArith List Bool String Reals Lra Lia.
From Flocq Require Import Core BinarySingleNaN.
From Verif Require Import Base Types NumR NumF R_Tac Spec Abs M_Angle M_Vector M_Line M_Ray M_Triangle M_Segment M_Circle M_Sector M_Rect M_Fail
  L_Angle L_Float P_Float P_Angle P_AngleF P_TrigF P_SafeF.
Import ListNotations.
Local Open Scope R_scope.

(** ** The two descriptions of a call agree *)
Section Agree.
  Context {T : Type} {N : Num T}.
  Lemma st_normal_ok (a : angle T) : st_normal a =
    match AngleDeg_normal (a_degree a) with
    | Ok d => (Ok tt, mkAngle d)
    | Raise e => (Raise e, a)
    end.
  Proof.
    destruct a as [d]. unfold st_normal, AngleDeg_normal, andthen, self, eval, write, done. cbn [a_degree].
    destruct (((d <? num (-360)) || (num 360 <? d))%num)%bool.
    - destruct (nfmod d (num 360)) as [x|e]; cbn [bind a_degree]; [|reflexivity].
      destruct (x <? num (-180))%num; cbn [a_degree]; match goal with |- context [if ?b then _ else _] => destruct b end; reflexivity.
    - cbn [bind a_degree]. destruct (d <? num (-180))%num; cbn [a_degree]; match goal with |- context [if ?b then _ else _] => destruct b end; reflexivity.
  Qed.
  Lemma of_num_of_normal (x : T) : AngleDeg_of_num x = match AngleDeg_normal x with Ok d => Ok (mkAngle d) | Raise e => Raise e end.
  Proof. unfold AngleDeg_of_num. now destruct (AngleDeg_normal x). Qed.
End Agree.
(** C192: a call that returns leaves the angle that the value-level model says, and a call that raises raises the
    exception it says. *)
Theorem C192_agrees : forall (T : Type) (N : Num T) (c : ang_call) (a : angle T),
  match st_ang c a with
  | (Ok _, a') => ang_call_val c a = Ok a'
  | (Raise e, _) => ang_call_val c a = Raise e
  end.
Proof.
  intros T N c a. destruct c as [x|b| | |x|x|k|k]; cbn [st_ang ang_call_val]; unfold AngleDeg_set_degree, AngleDeg_set_angle, AngleDeg_iadd, AngleDeg_isub, AngleDeg_imul, AngleDeg_idiv, andthen, eval, write, self; rewrite ?of_num_of_normal.
  - rewrite st_normal_ok. cbn [a_degree]. now destruct (AngleDeg_normal x).
  - now destruct (AngleDeg_degree b).
  - rewrite st_normal_ok. now destruct (AngleDeg_normal (a_degree a)).
  - reflexivity.
  - destruct (ang_num x) as [o|e]; cbn [bind]; [|reflexivity]. rewrite st_normal_ok, of_num_of_normal. cbn [a_degree]. match goal with |- context [AngleDeg_normal ?z] => now destruct (AngleDeg_normal z) end.
  - destruct (ang_num x) as [o|e]; cbn [bind]; [|reflexivity]. rewrite st_normal_ok, of_num_of_normal. cbn [a_degree]. match goal with |- context [AngleDeg_normal ?z] => now destruct (AngleDeg_normal z) end.
  - rewrite st_normal_ok. cbn [a_degree]. match goal with |- context [AngleDeg_normal ?z] => now destruct (AngleDeg_normal z) end.
  - destruct (ndiv (a_degree a) k) as [q|e]; cbn [bind]; [|reflexivity]. rewrite st_normal_ok, of_num_of_normal. cbn [a_degree]. now destruct (AngleDeg_normal q).
Qed.

(** ** Doubles *)
(** The number a call is about to store, in IEEE arithmetic on the degree it holds and the number it is given, or the
    exception that the evaluation of that number raises.  An angle given as the argument is read through degree(),
    which raises ValueError on an infinite degree. *)
Definition read (L : libm) (x : ang_arg F) : res F :=
  match x with
  | AN y => Ok y
  | AA b => if F_is_inf (a_degree b) then Raise ValueError else @AngleDeg_degree F (NumF L) b
  end.
Definition raw (L : libm) (c : @ang_call F) (a : angle F) : res F :=
  match c with
  | ASetDegree x => Ok x
  | ASetAngle b => read L (AA b)
  | ANormal => Ok (a_degree a)
  | AReverse => Ok (a_degree a)
  | AIadd x => match read L x with Ok y => Ok (Bplus mode_NE (a_degree a) y) | Raise e => Raise e end
  | AIsub x => match read L x with Ok y => Ok (Bminus mode_NE (a_degree a) y) | Raise e => Raise e end
  | AImul k => Ok (Bmult mode_NE (a_degree a) k)
  | AIdiv k => if F_is_zero k then Raise ZeroDivisionError else Ok (Bdiv mode_NE (a_degree a) k)
  end.

Lemma inf_inv (x : F) : F_is_inf x = true -> exists s, x = B754_infinity s.
Proof. destruct x; try discriminate. eauto. Qed.
Lemma degree_inf L a : F_is_inf (a_degree a) = true -> @AngleDeg_degree F (NumF L) a = Raise ValueError.
Proof. intros H. destruct (inf_inv _ H) as [s E]. unfold AngleDeg_degree. rewrite of_num_of_normal, E, normal_F_inf. reflexivity. Qed.
Lemma of_num_inf L (x : F) : F_is_inf x = true -> @AngleDeg_of_num F (NumF L) x = Raise ValueError.
Proof. intros H. destruct (inf_inv _ H) as [s ->]. rewrite of_num_of_normal, normal_F_inf. reflexivity. Qed.
Lemma read_ok L x : @ang_num F (NumF L) x = read L x.
Proof. destruct x as [b|y]; cbn [ang_num read]; [|reflexivity]. destruct (F_is_inf (a_degree b)) eqn:E; [now apply degree_inf|reflexivity]. Qed.
Lemma not_inf_degree L a : F_is_inf (a_degree a) = false -> exists d, @AngleDeg_degree F (NumF L) a = Ok d /\ good_or_nan d.
Proof. intros H. unfold AngleDeg_degree. destruct (of_num_gives L _ H) as (b & E & B). rewrite E. exists (a_degree b). now split. Qed.
Lemma st_normal_F L (a : angle F) :
  if F_is_inf (a_degree a) then @st_normal F (NumF L) a = (Raise ValueError, a)
  else exists a', @st_normal F (NumF L) a = (Ok tt, a') /\ @AngleDeg_of_num F (NumF L) (a_degree a) = Ok a' /\ angle_obj a'.
Proof.
  destruct (F_is_inf (a_degree a)) eqn:E.
  - rewrite st_normal_ok. destruct (inf_inv _ E) as [s ->]. now rewrite normal_F_inf.
  - destruct (of_num_gives L _ E) as (b & B1 & B2). exists b. rewrite st_normal_ok. rewrite of_num_of_normal in *. destruct (AngleDeg_normal (a_degree a)); [|discriminate]. injection B1 as <-. repeat split. exact B2.
Qed.

(** C192: every call that changes an angle, on every angle object, damaged or not.  If the number to store cannot be
    computed (an unusable argument, a zero divisor) the call raises and the angle is unchanged.  If that number is
    infinite the call raises ValueError and the infinity is what the angle now holds.  Otherwise the call returns and
    the angle holds a degree in [-180,180], or NaN. *)
Theorem C192_outcome_F : forall (L : libm) (c : @ang_call F) (a : angle F), c <> AReverse ->
  match raw L c a with
  | Raise e => @st_ang F (NumF L) c a = (Raise e, a)
  | Ok r => if F_is_inf r then @st_ang F (NumF L) c a = (Raise ValueError, mkAngle r)
            else exists a', @st_ang F (NumF L) c a = (Ok tt, a') /\ (a_degree a' = B754_nan \/ is_finite (a_degree a') = true /\ -180 <= B2R (a_degree a') <= 180)
  end.
Proof.
  intros L c a NR. destruct c as [x|b| | |x|x|k|k]; cbn [raw st_ang]; unfold andthen, eval, write, self; try (now destruct NR).
  - pose proof (st_normal_F L (mkAngle x)) as S. cbn [a_degree] in S. destruct (F_is_inf x); [exact S|]. destruct S as (a' & S1 & _ & S2). exists a'. now split.
  - cbn [read]. destruct (F_is_inf (a_degree b)) eqn:E; [now rewrite degree_inf|]. destruct (not_inf_degree L b E) as (d & D1 & D2). rewrite D1.
    destruct (F_is_inf d) eqn:I; [destruct (inf_inv _ I) as [s ->]; destruct D2 as [D2|[D2 _]]; discriminate|]. exists (mkAngle d). split; [reflexivity|exact D2].
  - pose proof (st_normal_F L a) as S. destruct a as [d]; cbn [a_degree] in *. destruct (F_is_inf d); [exact S|]. destruct S as (a' & S1 & _ & S2). exists a'. now split.
  - rewrite read_ok. destruct (read L x) as [y|e]; [|reflexivity]. pose proof (st_normal_F L (mkAngle (Bplus mode_NE (a_degree a) y))) as S. cbn [a_degree] in S. cbn [nadd NumF]. destruct (F_is_inf (Bplus _ _ _)); [exact S|]. destruct S as (a' & S1 & _ & S2). exists a'. now split.
  - rewrite read_ok. destruct (read L x) as [y|e]; [|reflexivity]. pose proof (st_normal_F L (mkAngle (Bminus mode_NE (a_degree a) y))) as S. cbn [a_degree] in S. cbn [nsub NumF]. destruct (F_is_inf (Bminus _ _ _)); [exact S|]. destruct S as (a' & S1 & _ & S2). exists a'. now split.
  - pose proof (st_normal_F L (mkAngle (Bmult mode_NE (a_degree a) k))) as S. cbn [a_degree] in S. cbn [nmul NumF]. destruct (F_is_inf (Bmult _ _ _)); [exact S|]. destruct S as (a' & S1 & _ & S2). exists a'. now split.
  - cbn [ndiv NumF]. unfold F_div. destruct (F_is_zero k); [reflexivity|]. pose proof (st_normal_F L (mkAngle (Bdiv mode_NE (a_degree a) k))) as S. cbn [a_degree] in S. destruct (F_is_inf (Bdiv _ _ _)); [exact S|]. destruct S as (a' & S1 & _ & S2). exists a'. now split.
Qed.
Example C192_outcome_nonvacuous : exists (c : @ang_call F) (a : angle F), c <> AReverse /\ raw libm_round c a = Ok (B754_infinity false) /\ is_finite (a_degree a) = true.
Proof. exists (AImul (Bdiv mode_NE (F_of_Z 1) (B754_zero false))), (mkAngle (F_of_Z 90)). split; [discriminate|]. split; reflexivity. Qed.

(** What a conforming C library does with an infinite angle: the sine and cosine of an infinity are NaN. *)
Definition trig_inf (L : libm) : Prop := forall s, is_nan (lm_sin L (B754_infinity s)) = true /\ is_nan (lm_cos L (B754_infinity s)) = true /\ is_nan (lm_tan L (B754_infinity s)) = true.

Lemma inf_rad L s : Bmult mode_NE (B754_infinity s) (@DEG2RAD F (NumF L)) = B754_infinity s.
Proof. destruct s; vm_compute; reflexivity. Qed.
Lemma bind_raise {A B} (r : res A) (k : A -> res B) e : r = Raise e -> bind r k = Raise e.
Proof. now intros ->. Qed.
Lemma to_angle_any L (x : ang_arg F) : (exists b, @to_angle F (NumF L) x = Ok b) \/ @to_angle F (NumF L) x = Raise ValueError.
Proof.
  destruct x as [b|y]; cbn [to_angle]; [left; eauto|]. destruct (F_is_inf y) eqn:E; [right; now apply of_num_inf|]. destruct (of_num_gives L y E) as (b & B & _). left; eauto.
Qed.
Lemma degree_any L (b : angle F) : (exists d, @AngleDeg_degree F (NumF L) b = Ok d) \/ @AngleDeg_degree F (NumF L) b = Raise ValueError.
Proof. destruct (F_is_inf (a_degree b)) eqn:E; [right; now apply degree_inf|]. destruct (not_inf_degree L b E) as (d & D & _). left; eauto. Qed.

(** C192: an angle left holding an infinity: reading it, copying it, turning it, comparing it and its trigonometry all
    raise ValueError; reverse() returns and leaves the infinity; and any
    set_degree with a number that is not infinite, or set_angle with an angle that is not damaged, repairs it. *)
Theorem C192_damaged_F : forall (L : libm) (a : angle F), trig_inf L -> F_is_inf (a_degree a) = true ->
  @AngleDeg_degree F (NumF L) a = Raise ValueError /\ @AngleDeg_abs F (NumF L) a = Raise ValueError /\ @AngleDeg_radian F (NumF L) a = Raise ValueError /\
  @AngleDeg_float F (NumF L) a = Raise ValueError /\ @AngleDeg_get_normalized F (NumF L) a = Raise ValueError /\ @AngleDeg_copy F (NumF L) a = Raise ValueError /\
  @AngleDeg_init F (NumF L) [VAng a] [] = Raise ValueError /\ @AngleDeg_neg F (NumF L) a = Raise ValueError /\ @AngleDeg_reverse_angle F (NumF L) a = Raise ValueError /\
  @AngleDeg_cos F (NumF L) a = Raise ValueError /\ @AngleDeg_sin F (NumF L) a = Raise ValueError /\ @AngleDeg_tan F (NumF L) a = Raise ValueError /\
  (forall x, @AngleDeg_is_left_of F (NumF L) a x = Raise ValueError /\ @AngleDeg_is_right_of F (NumF L) a x = Raise ValueError /\ @AngleDeg_is_right_equal_of F (NumF L) a x = Raise ValueError) /\
  a_degree (@AngleDeg_reverse F (NumF L) a) = a_degree a /\
  (forall x, F_is_inf x = false -> exists a', @st_ang F (NumF L) (ASetDegree x) a = (Ok tt, a') /\ angle_obj a') /\
  (forall b, F_is_inf (a_degree b) = false -> exists a', @st_ang F (NumF L) (ASetAngle b) a = (Ok tt, a') /\ angle_obj a').
Proof.
  intros L a TI H. pose proof (degree_inf L a H) as D. pose proof (of_num_inf L _ H) as O. destruct (inf_inv _ H) as [s E].
  unfold AngleDeg_abs, AngleDeg_radian, AngleDeg_float, AngleDeg_get_normalized, AngleDeg_copy, AngleDeg_reverse_angle. cbn [AngleDeg_init AngleDeg_ctor_val]. unfold AngleDeg_of_angle, AngleDeg_neg, AngleDeg_cos, AngleDeg_sin, AngleDeg_tan. rewrite !D, !O. cbn [bind].
  assert (M : forall f : F -> F, is_nan (f (B754_infinity s)) = true -> F_math1 f false (@nmul F (NumF L) (a_degree a) (@DEG2RAD F (NumF L))) = Raise ValueError).
  { intros f Hf. rewrite E. cbn [nmul NumF]. rewrite inf_rad. unfold F_math1. now rewrite Hf. }
  destruct (TI s) as (T1 & T2 & T3).
  do 7 (split; [reflexivity|]). split; [apply of_num_inf; rewrite E; reflexivity|]. split; [reflexivity|]. split; [now apply M|]. split; [now apply M|]. split; [now apply M|]. split; [|split; [|split]].
  - intros x. unfold AngleDeg_is_left_of, AngleDeg_is_right_of, AngleDeg_is_right_equal_of. destruct (to_angle_any L x) as [[b ->]| ->]; cbn [bind]; [|repeat split; reflexivity]. rewrite D. cbn [bind].
    destruct (degree_any L b) as [[d ->]| ->]; repeat split; reflexivity.
  - unfold AngleDeg_reverse. rewrite E. destruct s; reflexivity.
  - intros x X. pose proof (C192_outcome_F L (ASetDegree x) a ltac:(discriminate)) as C. cbn [raw] in C. rewrite X in C. exact C.
  - intros b B. pose proof (C192_outcome_F L (ASetAngle b) a ltac:(discriminate)) as C. cbn [raw read] in C. rewrite B in C. destruct (not_inf_degree L b B) as (d & D1 & D2). rewrite D1 in C.
    destruct (F_is_inf d) eqn:I; [destruct (inf_inv _ I) as [s' ->]; destruct D2 as [D2|[D2 _]]; discriminate|exact C].
Qed.
(** libm_round with NaN at the infinities *)
Definition at_inf (f : F -> F) (x : F) : F := if F_is_inf x then B754_nan else f x.
Definition libm_inf : libm := {| lm_sin := at_inf (lm_sin libm_round); lm_cos := at_inf (lm_cos libm_round); lm_tan := at_inf (lm_tan libm_round);
  lm_asin := lm_asin libm_round; lm_acos := lm_acos libm_round; lm_atan := lm_atan libm_round; lm_atan2 := lm_atan2 libm_round; lm_exp := lm_exp libm_round; lm_log := lm_log libm_round; lm_pow := lm_pow libm_round |}.
Lemma libm_inf_ok : trig_inf libm_inf.
Proof. intros s. repeat split; reflexivity. Qed.
Example C192_damaged_nonvacuous : trig_inf libm_inf /\ F_is_inf (a_degree (snd (@st_ang F (NumF libm_inf) (ASetDegree (B754_infinity true)) (mkAngle (F_of_Z 90))))) = true.
Proof. split; [exact libm_inf_ok|reflexivity]. Qed.

(** A program that makes calls one after the other and goes on after an exception. *)
Definition ang_catching (L : libm) (cs : list (@ang_call F)) (a : angle F) : angle F :=
  fold_left (fun a c => caught (@st_ang F (NumF L) c) a) cs a.
Definition raises {S A} (o : res A * S) : Prop := exists e, fst o = Raise e.

Lemma step_caught L c a : angle_obj a \/ F_is_inf (a_degree a) = true ->
  angle_obj (caught (@st_ang F (NumF L) c) a) \/
  F_is_inf (a_degree (caught (@st_ang F (NumF L) c) a)) = true /\ (raises (@st_ang F (NumF L) c a) \/ c = AReverse /\ F_is_inf (a_degree a) = true).
Proof.
  intros H. assert (DEC : c = AReverse \/ c <> AReverse) by (destruct c; (now left) || (right; discriminate)). destruct DEC as [->|NR].
  - unfold caught. cbn [st_ang write snd]. destruct H as [H|H].
    + left. destruct H as [H|H]; [|right; now apply reverse_F_good]. left. unfold AngleDeg_reverse. rewrite H. reflexivity.
    + right. split; [|right; now split]. unfold AngleDeg_reverse. destruct (inf_inv _ H) as [s E]. rewrite E. destruct s; reflexivity.
  - pose proof (C192_outcome_F L c a NR) as C. unfold caught, raises. destruct (raw L c a) as [r|e].
    + destruct (F_is_inf r) eqn:I; [rewrite C; right; split; [exact I|left; now exists ValueError]|]. destruct C as (a' & -> & A'). now left.
    + rewrite C. cbn [fst snd]. destruct H as [H|H]; [now left|right]. split; [exact H|left; now exists e].
Qed.
(** C192: a program that makes any number of calls and carries on after each exception: the angle always holds a
    degree in [-180,180], NaN or an infinity; and an infinity only while the last call, apart from calls of reverse(),
    is one that raised. *)
Theorem C192_history_F : forall (L : libm) (cs : list (@ang_call F)) (a0 : angle F), angle_obj a0 ->
  angle_obj (ang_catching L cs a0) \/
  F_is_inf (a_degree (ang_catching L cs a0)) = true /\
  exists before c after, cs = before ++ c :: after /\ raises (@st_ang F (NumF L) c (ang_catching L before a0)) /\ Forall (eq AReverse) after.
Proof.
  intros L cs a0 A0. induction cs as [|c cs IH] using rev_ind; [now left|].
  assert (E : ang_catching L (cs ++ [c]) a0 = caught (@st_ang F (NumF L) c) (ang_catching L cs a0)) by (unfold ang_catching; now rewrite fold_left_app). rewrite E. clear E.
  assert (H : angle_obj (ang_catching L cs a0) \/ F_is_inf (a_degree (ang_catching L cs a0)) = true) by (destruct IH as [IH|[IH _]]; [now left|now right]).
  destruct (step_caught L c _ H) as [S|[S1 [S2|[-> S2]]]]; [now left|right..].
  - split; [exact S1|]. exists cs, c, []. repeat split; [exact S2|constructor].
  - split; [exact S1|]. destruct IH as [IH|[_ (b & c' & r & -> & R & Q)]].
    + exfalso. destruct (inf_inv _ S2) as [s E]. destruct IH as [IH|[IH _]]; rewrite E in IH; discriminate.
    + exists b, c', (r ++ [AReverse]). split; [now rewrite <- app_assoc|]. split; [exact R|]. apply Forall_app. split; [exact Q|]. now constructor.
Qed.
Example C192_history_nonvacuous : angle_obj (mkAngle (F_of_Z 90)) /\
  F_is_inf (a_degree (ang_catching libm_round [AIadd (AN (F_of_Z 300)); AIsub (AN (B754_infinity false)); AReverse] (mkAngle (F_of_Z 90)))) = true.
Proof. split; [right; split; [reflexivity|destruct (F_of_Z_exact 90 eq_refl) as [E _]; cbn [a_degree]; rewrite E; lra]|vm_compute; reflexivity]. Qed.

(** C192, over the reals: the only call that can raise is a division by zero, which leaves the angle as it was; so
    through any calls, exceptions included, the degree stays in [-180,180]. *)
Theorem C192_history_R : forall (cs : list (@ang_call R)) (a0 : angle R), -180 <= a_degree a0 <= 180 ->
  let a := fold_left (fun a c => caught (st_ang c) a) cs a0 in
  -180 <= a_degree a <= 180 /\
  forall c e a', st_ang c a = (Raise e, a') -> c = AIdiv 0 /\ e = ZeroDivisionError /\ a' = a.
Proof.
  assert (SN : forall x : R, st_normal (mkAngle x) = (Ok tt, mkAngle (nrm x))) by (intros x; rewrite st_normal_ok; cbn [a_degree]; now rewrite normal_nrm).
  assert (F1 : forall (c : @ang_call R) a e a', st_ang c a = (Raise e, a') -> c = AIdiv 0 /\ e = ZeroDivisionError /\ a' = a).
  { intros c a e a'. destruct c as [x|b| | |x|x|k|k]; cbn [st_ang]; unfold andthen, eval, write, self; rewrite ?degree_R; rewrite ?SN; try discriminate.
    - destruct a; rewrite SN. discriminate.
    - destruct x as [b|y]; cbn [ang_num]; rewrite ?degree_R, SN; discriminate.
    - destruct x as [b|y]; cbn [ang_num]; rewrite ?degree_R, SN; discriminate.
    - cbn [ndiv NumR]. unfold Rdiv_py. destruct (Req_bool_spec k 0) as [->|]; [|rewrite SN; discriminate]. intros [= <- <-]. now repeat split. }
  intros cs a0 A0. split; [|intros c e a'; apply F1]. induction cs as [|c cs IH] using rev_ind; [exact A0|]. rewrite fold_left_app. cbn [fold_left]. cbv zeta in IH. set (a := fold_left _ cs a0) in *. unfold caught.
  destruct (st_ang c a) as [[[]|e] a'] eqn:E; [|destruct (F1 _ _ _ _ E) as (_ & _ & ->); exact IH]. cbn [snd].
  destruct c as [x|b| | |x|x|k|k]; cbn [st_ang] in E; unfold andthen, eval, write, self in E; rewrite ?degree_R in E; rewrite ?SN in E.
  - injection E as <-. apply nrm_range.
  - injection E as <-. apply nrm_range.
  - destruct a; rewrite SN in E. injection E as <-. apply nrm_range.
  - injection E as <-. destruct a as [d]. unfold AngleDeg_reverse. cbn [a_degree] in *. rnum. destruct (Rle_bool_spec 0 d); cbn [a_degree]; lra.
  - destruct x as [b|y]; cbn [ang_num] in E; rewrite ?degree_R in E; rewrite SN in E; injection E as <-; apply nrm_range.
  - destruct x as [b|y]; cbn [ang_num] in E; rewrite ?degree_R in E; rewrite SN in E; injection E as <-; apply nrm_range.
  - injection E as <-. apply nrm_range.
  - destruct (ndiv (a_degree a) k) as [q|]; [|discriminate]. rewrite SN in E. injection E as <-. apply nrm_range.
Qed.
Example C192_history_R_nonvacuous : -180 <= a_degree (mkAngle 90) <= 180 /\ exists a', st_ang (AIdiv 0) (mkAngle 90) = (Raise ZeroDivisionError, a').
Proof. split; [cbn; lra|]. cbn [st_ang]. unfold andthen, eval, write, self. cbn [ndiv NumR]. unfold Rdiv_py. rewrite Req_bool_true by reflexivity. eauto. Qed.
