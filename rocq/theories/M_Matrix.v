(** * M_Matrix: model of src/pyrusgeom/matrix_2d.py *)
From Coq Require Import ZArith List Bool String.
From Verif Require Import Base Types M_Angle M_Vector.
Import ListNotations.
Set Implicit Arguments.
Local Open Scope py_scope.
Local Open Scope num_scope.

Section Matrix.
  Context {T : Type} `{Num T}.

  (** matrix_2d.py:38-59 Matrix2D(); 61-65 reset *)
  Definition Matrix2D_identity : matrix T :=
    mkMat (num 1) (num 0) (num 0) (num 1) (num 0) (num 0).

  (** matrix_2d.py:141-147 det; 149-155 invertible *)
  Definition Matrix2D_det (m : matrix T) : T := m11 m * m22 m - m12 m * m21 m.
  (** matrix_2d.py:149-155 invertible *)
  Definition Matrix2D_invertible (m : matrix T) : bool :=
    nabs (Matrix2D_det m) >? EPSILON.

  (** matrix_2d.py:157-173 inverted *)
  Definition Matrix2D_inverted (m : matrix T) : res (matrix T) :=
    let determinant := Matrix2D_det m in
    if determinant =? num 0 then Ok Matrix2D_identity
    else
      dinv <- ndiv (num 1) determinant ;;
      Ok (mkMat (m22 m * dinv) (- m12 m * dinv)
                (- m21 m * dinv) (m11 m * dinv)
                ((m12 m * mdy m - mdx m * m22 m) * dinv)
                ((mdx m * m21 m - m11 m * mdy m) * dinv)).

  (** matrix_2d.py:175-186 translate *)
  Definition Matrix2D_translate (m : matrix T) (x y : T) : matrix T :=
    mkMat (m11 m) (m12 m) (m21 m) (m22 m) (mdx m + x) (mdy m + y).
  (** matrix_2d.py:188-203 scale *)
  Definition Matrix2D_scale (m : matrix T) (sx sy : T) : matrix T :=
    mkMat (m11 m * sx) (m12 m * sx) (m21 m * sy) (m22 m * sy)
          (mdx m * sx) (mdy m * sy).
  (** matrix_2d.py:205-228 rotate *)
  Definition Matrix2D_rotate (m : matrix T) (a : angle T) : res (matrix T) :=
    s <- AngleDeg_sin a ;;
    c <- AngleDeg_cos a ;;
    Ok (mkMat (m11 m * c - m21 m * s) (m12 m * c - m22 m * s)
              (m11 m * s + m21 m * c) (m12 m * s + m22 m * c)
              (mdx m * c - mdy m * s) (mdx m * s + mdy m * c)).
  (** matrix_2d.py:230-255 transform *)
  Definition Matrix2D_transform_xy (m : matrix T) (x y : T) : vec T :=
    V (m11 m * x + m12 m * y + mdx m) (m21 m * x + m22 m * y + mdy m).
  (** matrix_2d.py:230-255 transform *)
  Definition Matrix2D_transform (m : matrix T) (v : vec T) : vec T :=
    Matrix2D_transform_xy m (vx v) (vy v).
  (** matrix_2d.py:257-269 transform_vec: the new state of the argument *)
  Definition Matrix2D_transform_vec (m : matrix T) (v : vec T) : vec T :=
    Vector2D_assign v (m11 m * vx v + m12 m * vy v + mdx m)
                      (m21 m * vx v + m22 m * vy v + mdy m).
  (** matrix_2d.py:271-309 make_translation, make_scaling, make_rotation *)
  Definition make_translation (x y : T) : matrix T :=
    mkMat (num 1) (num 0) (num 0) (num 1) x y.
  (** matrix_2d.py:284-295 make_scaling *)
  Definition make_scaling (sx sy : T) : matrix T :=
    mkMat sx (num 0) (num 0) sy (num 0) (num 0).
  (** matrix_2d.py:297-309 make_rotation *)
  Definition make_rotation (a : angle T) : res (matrix T) :=
    c <- AngleDeg_cos a ;;
    s <- AngleDeg_sin a ;;
    Ok (mkMat c (- s) s c (num 0) (num 0)).
  (** matrix_2d.py:311-331 __imul__: the new state of self, also the result of
      [A * B] (333-348 __mul__ calls __imul__ on self, see M_Heap.v) *)
  Definition Matrix2D_imul (m o : matrix T) : matrix T :=
    mkMat (m11 m * m11 o + m12 m * m21 o)
          (m11 m * m12 o + m12 m * m22 o)
          (m21 m * m11 o + m22 m * m21 o)
          (m21 m * m12 o + m22 m * m22 o)
          (m11 m * mdx o + m12 m * mdy o + mdx m)
          (m21 m * mdx o + m22 m * mdy o + mdy m).
  (** matrix_2d.py:353-365 __eq__ (compares dx with the other's dy) *)
  Definition Matrix2D_eq (m o : matrix T) : bool :=
    (m11 m =? m11 o) && (m12 m =? m12 o) && (m21 m =? m21 o) && (m22 m =? m22 o)
    && (mdx m =? mdy o) && (mdy m =? mdy o).
End Matrix.
