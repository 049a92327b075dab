(** * M_Soccer: model of src/pyrusgeom/soccer_math.py *)
From Coq Require Import ZArith List Bool String.
From Verif Require Import Base Types M_Angle M_Vector.
Import ListNotations.
Set Implicit Arguments.
Local Open Scope py_scope.
Local Open Scope num_scope.

Section Soccer.
  Context {T : Type} `{Num T}.

  (** soccer_math.py:12 *)
  Definition SERVER_EPS : T := nlit 1 10000000000.

  (** soccer_math.py:15-31 kick_rate *)
  Definition kick_rate (dist dir_diff power ball_size player_size margin : T) : res T :=
    q1 <- ndiv (nlit 1 4 * nabs dir_diff) (num 180) ;;
    q2 <- ndiv (nlit 1 4 * (dist - ball_size - player_size)) margin ;;
    Ok (power * (num 1 - q1 - q2)).

  (** soccer_math.py:34-48 dir_rate *)
  Definition dir_rate (d back side : T) : res T :=
    if nabs d >? num 90 then
      q <- ndiv (nabs d - num 90) (num 90) ;;
      Ok (back - ((back - side) * (num 1 - q)))
    else
      q <- ndiv (nabs d) (num 90) ;;
      Ok (side + ((num 1 - side) * (num 1 - q))).

  (** soccer_math.py:51-64 effective_turn *)
  Definition effective_turn (moment speed inertia : T) : res T :=
    ndiv moment (num 1 + inertia * speed).

  (** soccer_math.py:67-82 final_speed *)
  Definition final_speed (power rate effort decay : T) : res T :=
    ndiv (nabs power * rate * effort) (num 1 - decay).

  (** soccer_math.py:85-99 can_over_speed_max *)
  Definition can_over_speed_max (power rate effort decay speed_max : T) : bool :=
    nabs power * rate * effort >? speed_max * (num 1 - decay).

  (** soccer_math.py:102-116 inertia_n_step_travel *)
  Definition inertia_n_step_travel (vel : vec T) (n : Z) (decay : T) : res (vec T) :=
    p <- npowi decay n ;;
    q <- ndiv (num 1 - p) (num 1 - decay) ;;
    Ok (Vector2D_mul (V (vx vel) (vy vel)) q).

  (** soccer_math.py:119-135 inertia_n_step_point *)
  Definition inertia_n_step_point (pos vel : vec T) (n : Z) (decay : T) : res (vec T) :=
    t <- inertia_n_step_travel vel n decay ;;
    Ok (Vector2D_add (V (vx pos) (vy pos)) t).

  (** soccer_math.py:138-151 inertia_n_step_distance *)
  Definition inertia_n_step_distance (speed : T) (n : Z) (decay : T) : res T :=
    p <- npowi decay n ;;
    ndiv (speed * (num 1 - p)) (num 1 - decay).

  (** soccer_math.py:153-163 inertia_final_travel *)
  Definition inertia_final_travel (vel : vec T) (decay : T) : res (vec T) :=
    Vector2D_truediv (V (vx vel) (vy vel)) (num 1 - decay).

  (** soccer_math.py:166-177 inertia_final_point *)
  Definition inertia_final_point (pos vel : vec T) (decay : T) : res (vec T) :=
    t <- inertia_final_travel vel decay ;;
    Ok (Vector2D_add (V (vx pos) (vy pos)) t).

  (** soccer_math.py:180-190 inertia_final_distance *)
  Definition inertia_final_distance (speed decay : T) : res T :=
    ndiv speed (num 1 - decay).

  (** soccer_math.py:193-215 r_int.  fi_og, fi_left, fi_right are Python ints;
      the subtractions convert them to float. *)
  Definition r_int (x : T) : res Z :=
    fi_og <- ntrunc x ;;
    let fi_diff := nabs (nofZ fi_og - x) in
    let fi_left := (fi_og - 1)%Z in
    let fi_left_diff := nabs (nofZ fi_left - x) in
    let fi_right := (fi_og + 1)%Z in
    let fi_right_diff := nabs (nofZ fi_right - x) in
    Ok (if (fi_diff <? fi_left_diff) && (fi_diff <? fi_right_diff) then fi_og
        else if fi_left_diff <? fi_right_diff then fi_left
        else fi_right).

  (** soccer_math.py:218-236 calc_length_geom_series *)
  Definition calc_length_geom_series (first_term sum_all ratio : T) : res T :=
    if (first_term <=? SERVER_EPS) || (sum_all <? num 0) || (ratio <=? SERVER_EPS)
    then Ok (num (-1))
    else if sum_all <=? SERVER_EPS then Ok (num 0)
    else
      q <- ndiv (sum_all * (ratio - num 1)) first_term ;;
      let tmp := num 1 + q in
      if tmp <=? SERVER_EPS then Ok (num (-1))
      else
        lt <- nlog tmp ;;
        lr <- nlog ratio ;;
        ndiv lt lr.

  (** soccer_math.py:238-249 calc_first_term_geom_series *)
  Definition calc_first_term_geom_series (sums ratio : T) (length : Z) : res T :=
    p <- npowi ratio length ;;
    ndiv (sums * (num 1 - ratio)) (num 1 - p).

  (** soccer_math.py:252-263 bound *)
  Definition bound (n0 n1 n2 : T) : T := nmin (nmax n0 n1) n2.
  (** soccer_math.py:265-276 min_max *)
  Definition min_max (low number high : T) : T := nmin (nmax low number) high.

  (** soccer_math.py:279-312 f_range: a generator.  [f_range_next start stop
      step] is one turn of the while loop: [None] when it stops, else the
      yielded value and the next start.  The defaults (301-305): [f_range x]
      is start 0, stop x + 0.0, step 1. *)
  Definition f_range_next (start stop step : T) : option (T * T) :=
    if (step >? num 0) && (start >=? stop) then None
    else if (step <? num 0) && (start <=? stop) then None
    else Some (start, start + step).
  (** soccer_math.py:279-312 f_range *)
  Definition f_range_args (start : T) (stop step : option T) : T * T * T :=
    let '(start', stop') :=
      match stop with None => (num 0, start + num 0) | Some s => (start, s) end in
    (start', stop', match step with None => num 1 | Some s => s end).
  (** the first [n] values the generator produces *)
  (** soccer_math.py:279-312 f_range *)
  Fixpoint f_range_take (n : nat) (start stop step : T) : list T :=
    match n with
    | O => []
    | S n' => match f_range_next start stop step with
              | None => []
              | Some (v, start') => v :: f_range_take n' start' stop step
              end
    end.
  (** [f_range_run start stop step l]: the generator yields exactly the values
      [l] and then stops *)
  (** soccer_math.py:279-312 f_range *)
  Inductive f_range_run : T -> T -> T -> list T -> Prop :=
  | frr_stop : forall start stop step,
      f_range_next start stop step = None -> f_range_run start stop step []
  | frr_yield : forall start stop step v start' l,
      f_range_next start stop step = Some (v, start') ->
      f_range_run start' stop step l ->
      f_range_run start stop step (v :: l).

  (** soccer_math.py:316-327 quantize *)
  Definition quantize (value qstep : T) : res T :=
    q <- ndiv value qstep ;; k <- r_int q ;; Ok (nofZ k * qstep).
  (** soccer_math.py:330-340 quantize_dist *)
  Definition quantize_dist (unq_dist qstep : T) : res T :=
    lg <- nlog (unq_dist + SERVER_EPS) ;;
    q <- quantize lg qstep ;;
    e <- nexp q ;;
    quantize e (nlit 1 10).
  (** soccer_math.py:343-366 unquantize_min, unquantize_max *)
  Definition unquantize_min (dist qstep : T) : res T :=
    q <- ndiv dist qstep ;; k <- r_int q ;; Ok ((nofZ k - nlit 1 2) * qstep).
  (** soccer_math.py:356-366 unquantize_max *)
  Definition unquantize_max (dist qstep : T) : res T :=
    q <- ndiv dist qstep ;; k <- r_int q ;; Ok ((nofZ k + nlit 1 2) * qstep).

  (** soccer_math.py:369-397 wind_effect.  [polar2vector] is static and its
      result is dropped, so wind_vec stays (0,0) (the call can still raise,
      for an infinite angle).  Result: the returned vector and the new state
      of [wind_error]; a Vector2D is always truthy, None skips it. *)
  Definition wind_effect (speed weight wind_force wind_dir wind_weight wind_rand : T)
    (wind_error : option (vec T)) : res (vec T * option (vec T)) :=
    let wind_vec := V (num 0) (num 0) in
    _ <- Vector2D_from_polar wind_force (AN wind_dir) ;;
    err <- match wind_error with
           | Some we =>
               ex <- ndiv (speed * vx wind_vec * wind_rand) (weight * wind_weight) ;;
               ey <- ndiv (speed * vy wind_vec * wind_rand) (weight * wind_weight) ;;
               Ok (Some (Vector2D_assign we ex ey))
           | None => Ok None
           end ;;
    x <- ndiv (speed * vx wind_vec) (weight * wind_weight) ;;
    y <- ndiv (speed * vy wind_vec) (weight * wind_weight) ;;
    Ok (V x y, err).

  (** soccer_math.py:400-414 unquantize_error *)
  Definition unquantize_error (see_dist qstep : T) : res T :=
    m0 <- unquantize_min see_dist (nlit 1 10) ;;
    lm <- nlog m0 ;;
    um <- unquantize_min lm qstep ;;
    em <- nexp um ;;
    let min_dist := em - SERVER_EPS in
    x0 <- unquantize_max see_dist (nlit 1 10) ;;
    lx <- nlog x0 ;;
    ux <- unquantize_max lx qstep ;;
    ex <- nexp ux ;;
    let max_dist := ex - SERVER_EPS in
    Ok (nabs (max_dist - min_dist)).
End Soccer.
