(** * P_Obj5: values and sharing of the vector operators and of Segment2D.projection
    at the level of objects (C105, C108) *)
From Coq Require Import ZArith List Bool Arith Lia Reals Lra Psatz.
From Flocq Require Import Core.
From Verif Require Import Base Types M_Angle M_Vector M_Line M_Ray M_Triangle
  M_Segment M_Circle M_Sector M_Rect M_Polygon M_Hull M_Heap M_Obj NumR R_Tac Spec Abs Spec3
  L_Angle P_Vector P_Line P_Segment P_Obj P_Obj2 P_Obj3.
Import ListNotations.
Local Open Scope nat_scope.

(** C105: p + q and p - q are new objects holding the sum and the difference, the
    operands (possibly one object) keep their values; p += q, p -= q, p.add(q),
    p.sub(q) and p.set_vector(q) write the result into p, and only there, also
    when q is p itself *)
Theorem C105_vector_operators_R (h : heap R) p q (v w : vec R) :
  nth_error h p = Some (OVec v) -> nth_error h q = Some (OVec w) ->
  (exists r h1, obj_vec_op2 VAdd p q h = Ok (r, h1) /\ nth_error h r = None /\ (forall i, i < length h -> nth_error h1 i = nth_error h i) /\
     exists s, nth_error h1 r = Some (OVec s) /\ pt s = (vx v + vx w, vy v + vy w)%R) /\
  (exists r h1, obj_vec_op2 VSub p q h = Ok (r, h1) /\ nth_error h r = None /\ (forall i, i < length h -> nth_error h1 i = nth_error h i) /\
     exists s, nth_error h1 r = Some (OVec s) /\ pt s = (vx v - vx w, vy v - vy w)%R) /\
  (forall u, exists h1, obj_vec_mut2 u p q h = Ok (tt, h1) /\ length h1 = length h /\ (forall i, i <> p -> nth_error h1 i = nth_error h i) /\
     exists s, nth_error h1 p = Some (OVec s) /\
       pt s = match u with VSetVector => pt w | VAddV | VIAdd => (vx v + vx w, vy v + vy w)%R | VSubV | VISub => (vx v - vx w, vy v - vy w)%R end).
Proof.
  intros E1 E2. assert (L := nth_lt _ _ _ E1).
  assert (OLD : forall x i, i < length h -> nth_error (h ++ [x]) i = nth_error h i) by (intros; now apply nth_error_app1).
  assert (FRESH : nth_error h (length h) = None) by (apply nth_error_None; lia).
  split; [|split].
  - exists (length h). eexists. split; [go|]. split; [exact FRESH|]. split; [apply OLD|]. eexists. split; [apply nth_app_new|]. reflexivity.
  - exists (length h). eexists. split; [go|]. split; [exact FRESH|]. split; [apply OLD|]. eexists. split; [apply nth_app_new|]. reflexivity.
  - intros u. exists (list_set h p (OVec (vec_mut2_fun u v w))). split; [go|]. split; [apply set_len|]. split; [intros i Hi; apply nth_set_ne; congruence|].
    eexists. split; [now apply nth_set_eq|]. destruct u; reflexivity.
Qed.
Example C105_operators_nonvacuous : let h := [OVec (mkVec 1 2 true); OVec (mkVec 3 5 true)]%R in
  nth_error h 0 = Some (OVec (mkVec 1 2 true))%R /\ nth_error h 1 = Some (OVec (mkVec 3 5 true))%R. Proof. split; reflexivity. Qed.

(** C108: projection of a point on a (nearly) degenerate segment hands out the
    origin object itself: assigning to the result moves the segment.  Otherwise
    the result is a new object, holding the foot of the perpendicular, or the
    invalid vector if that is more than 1e-6 outside *)
Theorem C108_projection_shares_R (h : heap R) s a b p (vo vt vp : vec R) :
  nth_error h s = Some (OSeg a b) -> nth_error h a = Some (OVec vo) -> nth_error h b = Some (OVec vt) ->
  nth_error h p = Some (OVec vp) ->
  let o := pt vo in let t := pt vt in let len := edist o t in
  let along := (dot (psub t o) (psub (pt vp) o) / len)%R in
  exists r h1, obj_seg_projection s p h = Ok (r, h1) /\
    ((len < 1 / 1000000)%R -> r = a /\ h1 = h) /\
    ((1 / 1000000 <= len)%R -> nth_error h r = None /\ (forall i, i < length h -> nth_error h1 i = nth_error h i) /\
       exists v, nth_error h1 r = Some (OVec v) /\ (v_valid v = true <-> - (1 / 1000000) < along < len + 1 / 1000000)%R /\
         (v_valid v = true -> pt v = lerp o t (along / len) /\ dot (psub (pt vp) (pt v)) (psub t o) = 0%R)).
Proof.
  intros E1 E2 E3 E4 o t len along. destruct (C38_projection_R (mkSeg vo vt) vp) as (v & V1 & V2 & V3 & V4 & V5). cbn [s_origin s_terminal] in *. fold o t in V2, V3, V4, V5. fold len in V2, V3, V4, V5. fold along in V3, V4.
  assert (LEN : Vector2D_r (Vector2D_sub vt vo) = Ok len).
  { rewrite r_R. f_equal. unfold len, edist, norm, norm2, psub, o, t, pt, px, py, Vector2D_sub, V. cbn [vx vy fst snd]. f_equal. rnum. ring. }
  unfold obj_seg_projection. rewrite (mbind_ok _ _ _ _ _ _ (get_seg_ok _ _ _ _ E1) eq_refl).
  do 3 (erewrite mbind_ok; [|go|reflexivity]). erewrite mbind_ok; [|unfold lift; rewrite LEN; reflexivity|reflexivity].
  rewrite V1. change (nltb len EPSILON) with (Rlt_bool len (@EPSILON R NumR)). unfold EPSILON. rnum.
  destruct (Rlt_bool_spec len (1 / 1000000)) as [Z|Z].
  - exists a, h. split; [reflexivity|]. split; [auto|]. intros. lra.
  - exists (length h), (h ++ [OVec v]). split; [reflexivity|]. split; [intros; lra|]. intros _. split; [apply nth_error_None; lia|]. split; [intros; now apply nth_error_app1|].
    exists v. split; [apply nth_app_new|]. split; [apply V3; lra|]. intros K. apply V4; [lra|exact K].
Qed.
Example C108_projection_nonvacuous : let h := [OVec (mkVec 0 0 true); OVec (mkVec 3 4 true); OSeg 0%nat 1%nat; OVec (mkVec 4 (-3) true)]%R in
  nth_error h 2 = Some (@OSeg R 0 1) /\ edist (0, 0)%R (3, 4)%R = 5%R. Proof. split; [reflexivity|]. unfold edist, norm, norm2, psub, px, py. cbn [fst snd]. replace ((0 - 3) * (0 - 3) + (0 - 4) * (0 - 4))%R with (5 * 5)%R by ring. apply sqrt_square. lra. Qed.
