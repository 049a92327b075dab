(** * P_SegmentF: Segment2D in binary64 *)
From Coq Require Import ZArith List Bool String Reals.
From Flocq Require Import Core BinarySingleNaN.
From Verif Require Import Base Types NumF M_Vector M_Segment L_Float P_Segment.

(** C28 (binary64): s.exist_intersection(t) == t.exist_intersection(s) bit for
    bit, for all doubles including infinities and NaN. *)
Theorem C28_symmetric_F : forall (L : libm) (s o : seg F),
  @Segment2D_exist_intersection F (NumF L) s (VSeg o) = @Segment2D_exist_intersection F (NumF L) o (VSeg s).
Proof. intros L. apply (@C28_symmetric F (NumF L)). intros x y. apply Beqb_sym. Qed.
Example C28_F_nonvacuous : forall L,
  @Segment2D_exist_intersection_seg F (NumF L) (mkSeg (mkVec (F_of_Z 0) (F_of_Z 0) true) (mkVec (F_of_Z 4) (F_of_Z 2) true))
    (mkSeg (mkVec (F_of_Z 2) (F_of_Z 1) true) (mkVec (F_of_Z 8) (F_of_Z 5) true)) = true.
Proof. intros L. vm_compute. reflexivity. Qed.
