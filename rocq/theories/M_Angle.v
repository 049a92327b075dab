(** * M_Angle: model of src/pyrusgeom/angle_deg.py *)
From Coq Require Import ZArith List Bool String.
From Verif Require Import Base Types.
Import ListNotations.
Set Implicit Arguments.
Local Open Scope py_scope.
Local Open Scope num_scope.

Section Angle.
  Context {T : Type} `{Num T}.

  (** angle_deg.py:78-93 AngleDeg.normal (on the raw degree) *)
  Definition AngleDeg_normal (d : T) : res T :=
    d1 <- (if (d <? num (-360)) || (num 360 <? d)
           then nfmod d (num 360) else Ok d) ;;
    let d2 := if d1 <? num (-180) then d1 + num 360 else d1 in
    let d3 := if d2 >? num 180 then d2 - num 360 else d2 in
    Ok d3.

  (** angle_deg.py:33-42, AngleDeg(x) for a number x *)
  Definition AngleDeg_of_num (x : T) : res (angle T) :=
    d <- AngleDeg_normal x ;; Ok (mkAngle d).

  (** angle_deg.py:44-51 degree *)
  Definition AngleDeg_degree (a : angle T) : res T :=
    cp <- AngleDeg_of_num (a_degree a) ;; Ok (a_degree cp).

  (** angle_deg.py:53-59 degree_ *)
  Definition AngleDeg_degree_ (a : angle T) : T := a_degree a.

  (** angle_deg.py:33-42, AngleDeg(a) for an AngleDeg a *)
  Definition AngleDeg_of_angle (a : angle T) : res (angle T) :=
    d <- AngleDeg_degree a ;; AngleDeg_of_num d.

  (** angle_deg.py:15-42 the constructor on a general argument list.  A value
      that is neither a number nor an AngleDeg fails in [normal] at the
      comparison with -360.0: TypeError. *)
  Definition AngleDeg_ctor_val (v : val T) : res (angle T) :=
    match v with
    | VAng a => AngleDeg_of_angle a
    | VNum x => AngleDeg_of_num x
    | _ => Raise TypeError
    end.
  (** angle_deg.py:15-42 __init__ *)
  Definition AngleDeg_init (args : list (val T)) (kw : list (string * val T))
    : res (angle T) :=
    match args, kw with
    | [], [] => AngleDeg_of_num (num 0)
    | [v], _ => AngleDeg_ctor_val v
    | _, _ => match kw_get "af" kw with
              | Some (VNum x) => AngleDeg_of_num x
              | Some _ => Raise TypeError
              | None => Raise GenericException
              end
    end.

  (** [if not isinstance(angle, AngleDeg): angle = AngleDeg(angle)] *)
  (** angle_deg.py:106-109, 177-178, 191-192, 205-206, 219-220: the two lines at the head of each method that accepts an angle or a number *)
  Definition to_angle (x : ang_arg T) : res (angle T) :=
    match x with AA a => Ok a | AN x => AngleDeg_of_num x end.

  (** angle_deg.py:61-68 set_degree *)
  Definition AngleDeg_set_degree (a : angle T) (x : T) : res (angle T) :=
    d <- AngleDeg_normal x ;; Ok (mkAngle d).

  (** angle_deg.py:70-76 set_angle *)
  Definition AngleDeg_set_angle (a b : angle T) : res (angle T) :=
    d <- AngleDeg_degree b ;; Ok (mkAngle d).

  (** angle_deg.py:118-124 abs *)
  Definition AngleDeg_abs (a : angle T) : res T :=
    d <- AngleDeg_degree a ;; Ok (nabs d).

  (** angle_deg.py:126-132 radian *)
  Definition AngleDeg_radian (a : angle T) : res T :=
    d <- AngleDeg_degree a ;; Ok (d * DEG2RAD).

  (** angle_deg.py:134-140 copy *)
  Definition AngleDeg_copy (a : angle T) : res (angle T) :=
    AngleDeg_of_num (a_degree a).

  (** angle_deg.py:142-148 reverse *)
  Definition AngleDeg_reverse (a : angle T) : angle T :=
    if a_degree a >=? num 0
    then mkAngle (- (num 180 - a_degree a))
    else mkAngle (num 180 + a_degree a).

  (** angle_deg.py:150-158 reverse_angle *)
  Definition AngleDeg_reverse_angle (a : angle T) : res (angle T) :=
    d <- AngleDeg_degree a ;;
    b <- AngleDeg_of_num d ;;
    Ok (AngleDeg_reverse b).

  (** angle_deg.py:160-166 get_normalized *)
  Definition AngleDeg_get_normalized (a : angle T) : res T :=
    d <- AngleDeg_degree a ;; ndiv (d + num 180) (num 360).

  (** angle_deg.py:168-180 is_left_of *)
  Definition AngleDeg_is_left_of (a : angle T) (x : ang_arg T) : res bool :=
    b <- to_angle x ;;
    db <- AngleDeg_degree b ;;
    da <- AngleDeg_degree a ;;
    let diff := db - da in
    Ok (((num 0 <? diff) && (diff <? num 180)) || (diff <? num (-180))).

  (** angle_deg.py:182-194 is_right_of *)
  Definition AngleDeg_is_right_of (a : angle T) (x : ang_arg T) : res bool :=
    b <- to_angle x ;;
    da <- AngleDeg_degree a ;;
    db <- AngleDeg_degree b ;;
    let diff := da - db in
    Ok (((num 0 <? diff) && (diff <? num 180)) || (diff <? num (-180))).

  (** angle_deg.py:196-208 is_left_equal_of (note: uses self._degree) *)
  Definition AngleDeg_is_left_equal_of (a : angle T) (x : ang_arg T) : res bool :=
    b <- to_angle x ;;
    db <- AngleDeg_degree b ;;
    let diff := db - a_degree a in
    Ok (((num 0 <=? diff) && (diff <? num 180)) || (diff <? num (-180))).

  (** angle_deg.py:210-222 is_right_equal_of *)
  Definition AngleDeg_is_right_equal_of (a : angle T) (x : ang_arg T) : res bool :=
    b <- to_angle x ;;
    da <- AngleDeg_degree a ;;
    db <- AngleDeg_degree b ;;
    let diff := da - db in
    Ok (((num 0 <=? diff) && (diff <? num 180)) || (diff <? num (-180))).

  (** angle_deg.py:95-116 is_within *)
  Definition AngleDeg_is_within (a : angle T) (left right : ang_arg T) : res bool :=
    l <- to_angle left ;;
    r <- to_angle right ;;
    lr <- AngleDeg_is_left_equal_of l (AA r) ;;
    if lr : bool then
      ls <- AngleDeg_is_left_equal_of l (AA a) ;;
      if ls : bool then AngleDeg_is_left_equal_of a (AA r) else Ok false
    else
      sr <- AngleDeg_is_left_equal_of a (AA r) ;;
      if sr : bool then Ok true else AngleDeg_is_left_equal_of l (AA a).

  (** [if isinstance(other, AngleDeg): other = other.degree()] *)
  (** angle_deg.py:233-234, 248-249, 290-293, 369-370, at the head of each operator *)
  Definition ang_num (x : ang_arg T) : res T :=
    match x with AA b => AngleDeg_degree b | AN x => Ok x end.

  (** angle_deg.py:224-237 __iadd__ *)
  Definition AngleDeg_iadd (a : angle T) (x : ang_arg T) : res (angle T) :=
    o <- ang_num x ;; AngleDeg_of_num (a_degree a + o).
  (** angle_deg.py:239-252 __isub__ *)
  Definition AngleDeg_isub (a : angle T) (x : ang_arg T) : res (angle T) :=
    o <- ang_num x ;; AngleDeg_of_num (a_degree a - o).
  (** angle_deg.py:254-265 __imul__ *)
  Definition AngleDeg_imul (a : angle T) (x : T) : res (angle T) :=
    AngleDeg_of_num (a_degree a * x).
  (** angle_deg.py:267-278 __idiv__ (Python 3 never calls it for [/=]) *)
  Definition AngleDeg_idiv (a : angle T) (x : T) : res (angle T) :=
    q <- ndiv (a_degree a) x ;; AngleDeg_of_num q.
  (** angle_deg.py:280-294 __add__ *)
  Definition AngleDeg_add (a : angle T) (x : ang_arg T) : res (angle T) :=
    o <- ang_num x ;; AngleDeg_of_num (a_degree a + o).
  (** angle_deg.py:296-308 __sub__ (uses other._degree) *)
  Definition AngleDeg_sub (a : angle T) (x : ang_arg T) : res (angle T) :=
    match x with
    | AA b => AngleDeg_of_num (a_degree a - a_degree b)
    | AN x => AngleDeg_of_num (a_degree a - x)
    end.
  (** angle_deg.py:310-321 __mul__ *)
  Definition AngleDeg_mul (a : angle T) (x : T) : res (angle T) :=
    AngleDeg_of_num (a_degree a * x).
  (** angle_deg.py:323-334 __floordiv__ (true division!) *)
  Definition AngleDeg_floordiv (a : angle T) (x : T) : res (angle T) :=
    q <- ndiv (a_degree a) x ;; AngleDeg_of_num q.
  (** angle_deg.py:344-350 __float__ *)
  Definition AngleDeg_float (a : angle T) : res T := AngleDeg_degree a.
  (** angle_deg.py:352-359 __neg__ *)
  Definition AngleDeg_neg (a : angle T) : res (angle T) :=
    AngleDeg_of_num (- a_degree a).
  (** angle_deg.py:361-371 __eq__ *)
  Definition AngleDeg_eq (a : angle T) (x : ang_arg T) : res bool :=
    o <- ang_num x ;; Ok (nabs (a_degree a - o) <? EPSILON).

  (** angle_deg.py:373-395 cos, sin, tan *)
  Definition AngleDeg_cos (a : angle T) : res T := ncos (a_degree a * DEG2RAD).
  (** angle_deg.py:381-387 sin *)
  Definition AngleDeg_sin (a : angle T) : res T := nsin (a_degree a * DEG2RAD).
  (** angle_deg.py:389-395 tan *)
  Definition AngleDeg_tan (a : angle T) : res T := ntan (a_degree a * DEG2RAD).

  (** angle_deg.py:397-455 rad2deg, deg2rad, cos_deg, sin_deg, tan_deg *)
  Definition rad2deg (r : T) : T := r * RAD2DEG.
  (** angle_deg.py:409-419 deg2rad *)
  Definition deg2rad (d : T) : T := d * DEG2RAD.
  (** angle_deg.py:421-431 cos_deg *)
  Definition cos_deg (d : T) : res T := ncos (deg2rad d).
  (** angle_deg.py:433-443 sin_deg *)
  Definition sin_deg (d : T) : res T := nsin (deg2rad d).
  (** angle_deg.py:445-455 tan_deg *)
  Definition tan_deg (d : T) : res T := ntan (deg2rad d).

  (** angle_deg.py:457-472 acos_deg *)
  Definition acos_deg (c : T) : res T :=
    if c >=? num 1 then Ok (num 0)
    else if c <=? num (-1) then Ok (num 180)
    else r <- nacos c ;; Ok (rad2deg r).

  (** angle_deg.py:474-489 asin_deg *)
  Definition asin_deg (s : T) : res T :=
    if s >=? num 1 then Ok (num 90)
    else if s <=? num (-1) then Ok (num (-90))
    else r <- nasin s ;; Ok (rad2deg r).

  (** angle_deg.py:491-501 atan_deg *)
  Definition atan_deg (t : T) : res T := r <- natan t ;; Ok (rad2deg r).

  (** angle_deg.py:503-517 atan2_deg *)
  Definition atan2_deg (y x : T) : T :=
    if (nabs x <? EPSILON) && (nabs y <? EPSILON) then num 0
    else rad2deg (natan2 y x).

  (** [AngleDeg(v)] for an angle-or-number argument *)
  (** angle_deg.py:15-42 __init__ *)
  Definition AngleDeg_of_arg (x : ang_arg T) : res (angle T) :=
    match x with AA a => AngleDeg_of_angle a | AN x => AngleDeg_of_num x end.

  (** angle_deg.py:519-539 bisect *)
  Definition AngleDeg_bisect (left right : ang_arg T) : res (angle T) :=
    result <- AngleDeg_of_arg left ;;
    r1 <- AngleDeg_of_arg right ;;
    rel0 <- AngleDeg_sub r1 (AA result) ;;
    rel <- AngleDeg_of_angle rel0 ;;
    dl <- AngleDeg_degree result ;;
    r2 <- AngleDeg_of_arg right ;;
    dr <- AngleDeg_degree r2 ;;
    let diff := dl - dr in
    drel <- AngleDeg_degree rel ;;
    let half_deg := drel * nlit 1 2 in
    result' <- AngleDeg_iadd result (AN half_deg) ;;
    if ((num 0 <? diff) && (diff <? num 180)) || (diff <? num (-180))
    then Ok result'
    else AngleDeg_add result' (AN (num 180)).

  (** angle_deg.py:541-549 normalize_angle *)
  Definition normalize_angle (d : T) : res T :=
    d1 <- (if (d <? num (-360)) || (d >? num 360)
           then nmod d (num 360) else Ok d) ;;
    let d2 := if d1 <? num (-180) then d1 + num 360 else d1 in
    let d3 := if d2 >? num 180 then d2 - num 360 else d2 in
    Ok d3.
End Angle.
