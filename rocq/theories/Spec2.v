(** * Spec2: closed outlines, counting, shoelace sums.

    Like Spec.v, nothing here mentions the model. *)
From Coq Require Import List Reals.
From Verif Require Import Spec.
Import ListNotations.
Local Open Scope R_scope.

(** The edges of the closed polygon with the given vertices: every vertex with
    its successor, the last one with the first. *)
Definition closed_edges {A} (l : list A) : list (A * A) :=
  match l with [] => [] | a :: t => combine l (t ++ [a]) end.

(** Exactly [n] elements of the list satisfy [P]. *)
Inductive count {A} (P : A -> Prop) : list A -> nat -> Prop :=
| count_nil : count P [] 0
| count_yes a l n : P a -> count P l n -> count P (a :: l) (S n)
| count_no a l n : ~ P a -> count P l n -> count P (a :: l) n.

(** The horizontal half line to the right of [p] is crossed by the edge: one
    end is strictly above the level of [p] and the other is not (so that a
    vertex on the half line is counted once for a crossing path and an even
    number of times for a touching one), and the edge passes to the right of
    [p] at that level. *)
Definition crosses_right (p : point) (e : point * point) : Prop :=
  (py (fst e) <= py p < py (snd e) \/ py (snd e) <= py p < py (fst e)) /\
  exists x, px p < x /\ on_seg (fst e) (snd e) (x, py p).

(** [q] is on the outline. *)
Definition on_outline (l : list point) (q : point) : Prop :=
  exists e, In e (closed_edges l) /\ on_seg (fst e) (snd e) q.

Definition Rsum (l : list R) : R := fold_right Rplus 0 l.
(** Twice the signed area (shoelace formula). *)
Definition shoelace (l : list point) : R := Rsum (map (fun e => cross (fst e) (snd e)) (closed_edges l)).

(** Twice the signed area of [a b p]; positive if [p] is on the left of the
    directed line from [a] to [b]. *)
Definition side (a b p : point) : R := cross (psub b a) (psub p a).
(** A strictly convex polygon, vertices listed counterclockwise: no vertex is
    repeated, and for every edge all the other vertices are strictly on its left. *)
Definition strictly_convex (l : list point) : Prop :=
  NoDup l /\ forall a b v, In (a, b) (closed_edges l) -> In v l -> v <> a -> v <> b -> side a b v > 0.
(** [p] is strictly on the left of every edge. *)
Definition strictly_inside (l : list point) (p : point) : Prop :=
  forall a b, In (a, b) (closed_edges l) -> side a b p > 0.
(** As [crosses_right], but an edge through [p] itself counts too. *)
Definition crosses_right_closed (p : point) (e : point * point) : Prop :=
  (py (fst e) <= py p < py (snd e) \/ py (snd e) <= py p < py (fst e)) /\
  exists x, px p <= x /\ on_seg (fst e) (snd e) (x, py p).

(** Points of the plane in general position, with a margin: no point twice,
    and no three of them (nearly) on a line. *)
Definition general_position (l : list point) : Prop :=
  NoDup l /\ forall a b c, In a l -> In b l -> In c l -> a <> b -> b <> c -> a <> c -> Rabs (side a b c) >= 1/1000000.
