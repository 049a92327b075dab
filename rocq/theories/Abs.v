(** * Abs: reading model objects as geometry (Spec.v) *)
From Coq Require Import ZArith List Reals Lra.
From Verif Require Import Base Types NumR Spec.
Local Open Scope R_scope.

(** The point of a vector. *)
Definition pt (v : vec R) : point := (vx v, vy v).
(** The points of a line, of a segment. *)
Definition lpts (l : line R) (p : point) : Prop := on_line (l_a l) (l_b l) (l_c l) p.
Definition spts (s : seg R) (p : point) : Prop := on_seg (pt (s_origin s)) (pt (s_terminal s)) p.

(** The points of a ray and of the line that carries it. *)
Definition rpts (r : ray R) (p : point) : Prop := half_line (pt (ray_origin r)) (a_degree (ray_dir r)) p.
Definition carrier (r : ray R) (p : point) : Prop := dir_line (pt (ray_origin r)) (a_degree (ray_dir r)) p.

Lemma px_pt v : px (pt v) = vx v. Proof. reflexivity. Qed.
Lemma py_pt v : py (pt v) = vy v. Proof. reflexivity. Qed.
Lemma point_eq (p q : point) : px p = px q -> py p = py q -> p = q.
Proof. destruct p, q; cbn; congruence. Qed.
Lemma norm2_nonneg u : 0 <= norm2 u.
Proof. unfold norm2; nra. Qed.
Lemma norm_nonneg u : 0 <= norm u.
Proof. apply sqrt_pos. Qed.
Lemma norm_sq u : norm u * norm u = norm2 u.
Proof. apply sqrt_sqrt, norm2_nonneg. Qed.
Lemma norm_zero u : norm u = 0 -> px u = 0 /\ py u = 0.
Proof. intros H. pose proof (norm_sq u) as E. rewrite H in E. unfold norm2 in E. nra. Qed.
Lemma edist_nonneg p q : 0 <= edist p q.
Proof. apply norm_nonneg. Qed.
Lemma edist_le p q r s : norm2 (psub p q) <= norm2 (psub r s) -> edist p q <= edist r s.
Proof. intros; now apply sqrt_le_1_alt. Qed.
Lemma edist_sym p q : edist p q = edist q p.
Proof. unfold edist, norm; f_equal; unfold norm2, psub; cbn; ring. Qed.
Lemma edist_refl p : edist p p = 0.
Proof. unfold edist, norm, norm2, psub; cbn. rewrite !Rminus_diag_eq by easy. rewrite Rmult_0_l, Rplus_0_l. apply sqrt_0. Qed.
Lemma edist_zero p q : edist p q = 0 -> p = q.
Proof. intros H. apply norm_zero in H. unfold psub in H; cbn in H. apply point_eq; lra. Qed.

(** Cauchy-Schwarz and the triangle inequality *)
Lemma dot_le u v : dot u v <= norm u * norm v.
Proof.
  destruct (Rle_dec (dot u v) 0).
  { pose proof (norm_nonneg u); pose proof (norm_nonneg v); nra. }
  unfold norm. rewrite <- sqrt_mult by apply norm2_nonneg.
  rewrite <- (sqrt_square (dot u v)) by lra. apply sqrt_le_1_alt.
  unfold dot, norm2.
  pose proof (Rle_0_sqr (px u * py v - py u * px v)) as H; unfold Rsqr in H; nra.
Qed.
Lemma norm_triangle u v : norm (px u + px v, py u + py v) <= norm u + norm v.
Proof.
  apply Rsqr_incr_0_var; [|pose proof (norm_nonneg u); pose proof (norm_nonneg v); lra].
  unfold Rsqr. rewrite norm_sq.
  replace ((norm u + norm v) * (norm u + norm v))
    with (norm u * norm u + 2 * (norm u * norm v) + norm v * norm v) by ring.
  rewrite !norm_sq. pose proof (dot_le u v). unfold norm2, dot in *; cbn; nra.
Qed.
Lemma edist_triangle p q r : edist p r <= edist p q + edist q r.
Proof.
  unfold edist. pose proof (norm_triangle (psub p q) (psub q r)) as H.
  replace (psub p r) with (px (psub p q) + px (psub q r), py (psub p q) + py (psub q r)); [easy|].
  apply point_eq; unfold psub; cbn; ring.
Qed.
