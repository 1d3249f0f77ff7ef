(** Dense output over real time, with its derivative.  Models [DenseInterpolation] of
    [/repo/diffrax/_global_interpolation.py] (as [Model_Dense], which is over integer time and has no
    derivative), and [evaluate] and [derivative] of [/repo/diffrax/_solution.py].  The values are those of one
    component of the state: every operation on values is a [tree_map] over the components, and the choice of
    the step depends on the time only. *)
From Coq Require Import ZArith Reals List Bool Arith.
From Verif Require Import Model_Loop Model_Dense.
Import ListNotations.
Open Scope R_scope.

(** Times; unused entries of the buffer are infinite ([_integrate.py:1232-1236]). *)
Inductive xreal := XFin (r : R) | XInf.
(** [<] on floating-point numbers, without NaN *)
Definition xreal_ltb (a b : xreal) : bool :=
  match a, b with
  | XFin x, XFin y => if Rlt_dec x y then true else false
  | XFin _, XInf => true
  | XInf, _ => false
  end.

Section DenseReal.
  Context {DI : Type}.
  (** [_global_interpolation.py:315-327].  [dr_cls t0 t1 info] is the function
      [interpolation_cls(t0=t0, t1=t1, **info).evaluate], [dr_slope t0 t1 info] is [....derivative]: the
      local interpolations inherit [AbstractPath.derivative] ([_path.py:82-102]), a [jax.jvp] of [evaluate]. *)
  Record dense_real := DenseReal {
    dr_ts : list xreal; dr_ts_size : nat; dr_infos : list (option DI);
    dr_cls : R -> R -> DI -> R -> R; dr_slope : R -> R -> DI -> R -> R;
    dr_direction : R; dr_t0_if_trivial : R; dr_y0_if_trivial : R
  }.

  (** [_global_interpolation.py:335-340] [_get_local_interpolation]: the ends of the step and its info; [None] if
      one of them is padding. *)
  Definition dr_local (d : dense_real) (t : R) (left : bool) : option (R * R * DI) :=
    let index := interpret_t xreal_ltb (dr_ts d) (dr_ts_size d) (XFin t) left in
    match get_wrap (dr_ts d) index, get_wrap (dr_ts d) (index + 1), get_wrap (dr_infos d) index with
    | Some (XFin prev_t), Some (XFin next_t), Some (Some info) => Some (prev_t, next_t, info)
    | _, _, _ => None
    end.

  (** [_global_interpolation.py:365-376] [_nan_if_out_of_bounds]: the condition. *)
  Definition dr_out_of_bounds (d : dense_real) (t : R) : bool :=
    (dr_ts_size d <=? 1)%nat
    || match get_wrap (dr_ts d) 0 with Some ts_0 => xreal_ltb (XFin t) ts_0 | None => false end
    || match get_wrap (dr_ts d) (Z.of_nat (dr_ts_size d) - 1) with
       | Some ts_1 => xreal_ltb ts_1 (XFin t) | None => false end.

  (** [_global_interpolation.py:343-354] [evaluate] without [t1]; [None] is NaN.  A NaN time gives NaN. *)
  Definition dr_evaluate (d : dense_real) (t0 : R) (left : bool) : option R :=
    let t := t0 * dr_direction d in
    let out := if dr_out_of_bounds d t then None
               else match dr_local d t left with
                    | Some (prev_t, next_t, info) => Some (dr_cls d prev_t next_t info t)
                    | None => None
                    end in
    if (if Req_EM_T t (dr_t0_if_trivial d) then true else false) && (dr_ts_size d =? 1)%nat
    then Some (dr_y0_if_trivial d) else out.

  (** [_global_interpolation.py:347-348] [evaluate] with [t1] *)
  Definition dr_increment (d : dense_real) (t0 t1 : R) (left : bool) : option R :=
    match dr_evaluate d t1 left, dr_evaluate d t0 left with
    | Some y1, Some y0 => Some (y1 - y0)
    | _, _ => None
    end.

  (** [_global_interpolation.py:356-363] [derivative] *)
  Definition dr_derivative (d : dense_real) (t : R) (left : bool) : option R :=
    let t := t * dr_direction d in
    if dr_out_of_bounds d t then None
    else match dr_local d t left with
         | Some (prev_t, next_t, info) => Some (dr_direction d * dr_slope d prev_t next_t info t)
         | None => None
         end.

  (** [_solution.py:134-154] [Solution.evaluate]; [inl tt] is the [ValueError] raised without dense output. *)
  Definition sol_evaluate (interpolation : option dense_real) (t0 : R) (t1 : option R) (left : bool) : unit + option R :=
    match interpolation with
    | None => inl tt
    | Some d => inr (match t1 with None => dr_evaluate d t0 left | Some t1 => dr_increment d t0 t1 left end)
    end.
  (** [_solution.py:156-201] [Solution.derivative] *)
  Definition sol_derivative (interpolation : option dense_real) (t : R) (left : bool) : unit + option R :=
    match interpolation with
    | None => inl tt
    | Some d => inr (dr_derivative d t left)
    end.
End DenseReal.
Arguments dense_real : clear implicits.
