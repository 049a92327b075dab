(** * Spec: the plane geometry the property theorems are stated with.

    Nothing here mentions the model: these are textbook notions over pairs of
    real numbers and angles in degrees. *)
From Coq Require Import ZArith List Reals.
Local Open Scope R_scope.

(** ** Angles in degrees *)

(** Same direction: equal up to full turns. *)
Definition cong360 (x y : R) : Prop := exists k : Z, x = y + 360 * IZR k.

(** Turning clockwise (increasing degrees; the y axis points down in the
    simulator) by [t] in [0,360) takes direction [a] to direction [b]. *)
Definition turn (a b t : R) : Prop := 0 <= t < 360 /\ cong360 (a + t) b.

(** Radian measure of a degree value. *)
Definition rad (d : R) : R := d * (PI / 180).

(** ** Points *)
Definition point : Type := (R * R)%type.
Definition px (p : point) : R := fst p.
Definition py (p : point) : R := snd p.
Definition psub (p q : point) : point := (px p - px q, py p - py q).
Definition dot (u v : point) : R := px u * px v + py u * py v.
Definition cross (u v : point) : R := px u * py v - py u * px v.
Definition norm2 (u : point) : R := px u * px u + py u * py u.
Definition norm (u : point) : R := sqrt (norm2 u).
(** Euclidean distance *)
Definition edist (p q : point) : R := norm (psub p q).

(** The point a fraction [t] of the way from [p] to [q]. *)
Definition lerp (p q : point) (t : R) : point :=
  (px p + t * (px q - px p), py p + t * (py q - py p)).

(** [r] is a point of the closed segment [p q]. *)
Definition on_seg (p q r : point) : Prop := exists t, 0 <= t <= 1 /\ r = lerp p q t.
(** [r] is a point of the segment other than its end points' parameters. *)
Definition in_open_seg (p q r : point) : Prop := exists t, 0 < t < 1 /\ r = lerp p q t.
(** [r] is on the straight line through [p] and [q]. *)
Definition on_line2 (p q r : point) : Prop := exists t, r = lerp p q t.
(** [r] satisfies a x + b y + c = 0. *)
Definition on_line (a b c : R) (r : point) : Prop := a * px r + b * py r + c = 0.
(** [p], [q], [r] are collinear. *)
Definition collinear (p q r : point) : Prop := cross (psub q p) (psub r p) = 0.
(** [r] is a convex combination of [p], [q] and [s]. *)
Definition in_triangle (p q s r : point) : Prop :=
  exists u v w, 0 <= u /\ 0 <= v /\ 0 <= w /\ u + v + w = 1 /\
    px r = u * px p + v * px q + w * px s /\ py r = u * py p + v * py q + w * py s.

(** [d] is the least distance from [p] to a point of the set [S], attained. *)
Definition is_min_dist (S : point -> Prop) (p : point) (d : R) : Prop :=
  (exists q, S q /\ edist p q = d) /\ (forall q, S q -> d <= edist p q).
Definition is_max_dist (S : point -> Prop) (p : point) (d : R) : Prop :=
  (exists q, S q /\ edist p q = d) /\ (forall q, S q -> edist p q <= d).
(** [d] is the least distance between the sets [S] and [S'], attained. *)
Definition is_set_dist (S S' : point -> Prop) (d : R) : Prop :=
  (exists p q, S p /\ S' q /\ edist p q = d) /\
  (forall p q, S p -> S' q -> d <= edist p q).

(** The 1e-6 box in which the library treats a vector as having no direction. *)
Definition tiny (x y : R) : Prop := Rabs x < 1/1000000 /\ Rabs y < 1/1000000.

(** The line and the half line from [o] in direction [deg]. *)
Definition dir_line (o : point) (deg : R) (q : point) : Prop :=
  exists t, q = (px o + t * cos (rad deg), py o + t * sin (rad deg)).
Definition half_line (o : point) (deg : R) (q : point) : Prop :=
  exists t, 0 <= t /\ q = (px o + t * cos (rad deg), py o + t * sin (rad deg)).
