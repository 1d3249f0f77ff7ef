(** Dense output.  Models [/repo/diffrax/_global_interpolation.py], [AbstractGlobalInterpolation] and
    [DenseInterpolation], in normalised time (the multiplication of times by [direction] is in
    [Model_Direction]). *)
From Coq Require Import ZArith List Bool Arith.
From Verif Require Import Model_Result Model_Loop.
Import ListNotations.
Open Scope Z_scope.

Section Search.
  Context {T : Type} (ltb : T -> T -> bool).
  (** [jnp.searchsorted(ts, t, side)]: on a sorted array, the number of entries that are [< t]
      ([side="left"]) or [<= t] ([side="right"]); for other arrays the result of the binary search
      is not modelled. *)
  Fixpoint searchsorted (ts : list T) (t : T) (left : bool) : nat :=
    match ts with
    | [] => 0
    | x :: ts' => if (if left then ltb x t else negb (ltb t x)) then S (searchsorted ts' t left) else 0
    end.
  (** [_global_interpolation.py:38-46] [_interpret_t]: the index.  [jnp.clip] applies [max] last. *)
  Definition interpret_t (ts : list T) (ts_size : nat) (t : T) (left : bool) : Z :=
    let maxlen := Z.of_nat ts_size - 2 in
    Z.min (Z.max (Z.of_nat (searchsorted ts t left) - 1) 0) maxlen.
End Search.

(** [x[i]]: a negative index counts from the end; too large an index is clamped. *)
Definition get_wrap {A} (l : list A) (i : Z) : option A :=
  get_clamp l (Z.to_nat (if i <? 0 then Z.of_nat (length l) + i else i)).

Definition xtime_ltb (a b : xtime) : bool :=
  match a, b with
  | Fin x, Fin y => x <? y
  | NInf, NInf => false
  | NInf, _ => true
  | Fin _, PInf => true
  | _, _ => false
  end.

Section Dense.
  Context {Y DI : Type}.
  (** [_global_interpolation.py:315-327]; [None] in [dn_infos] is padding. *)
  Record dense_interpolation := DenseInterpolation {
    dn_ts : list xtime; dn_ts_size : nat; dn_infos : list (option DI);
    dn_cls : Z -> Z -> DI -> Z -> Y;
    dn_t0_if_trivial : Z; dn_y0_if_trivial : Y
  }.

  (** [_global_interpolation.py:335-340, 350-352]: the local interpolant, evaluated at [t]; [None] if
      a knot or the info is padding. *)
  Definition dense_local (d : dense_interpolation) (t : Z) (left : bool) : option Y :=
    let index := interpret_t xtime_ltb (dn_ts d) (dn_ts_size d) (Fin t) left in
    match get_wrap (dn_ts d) index, get_wrap (dn_ts d) (index + 1), get_wrap (dn_infos d) index with
    | Some (Fin prev_t), Some (Fin next_t), Some (Some info) => Some (dn_cls d prev_t next_t info t)
    | _, _, _ => None
    end.

  (** [_global_interpolation.py:365-376] *)
  Definition out_of_bounds (d : dense_interpolation) (t : Z) : bool :=
    (dn_ts_size d <=? 1)%nat
    || match get_wrap (dn_ts d) 0 with Some ts_0 => xtime_ltb (Fin t) ts_0 | None => false end
    || match get_wrap (dn_ts d) (Z.of_nat (dn_ts_size d) - 1) with
       | Some ts_1 => xtime_ltb ts_1 (Fin t) | None => false end.

  (** [_global_interpolation.py:343-354] [evaluate]; [None] is NaN.  A NaN time gives NaN. *)
  Definition dense_evaluate (d : dense_interpolation) (t : Z) (left : bool) : option Y :=
    let out := if out_of_bounds d t then None else dense_local d t left in
    if (t =? dn_t0_if_trivial d) && (dn_ts_size d =? 1)%nat then Some (dn_y0_if_trivial d) else out.

  (** [_global_interpolation.py:378-392], in normalised time. *)
  Definition dense_t0 (d : dense_interpolation) : option xtime :=
    if (dn_ts_size d =? 1)%nat then Some (Fin (dn_t0_if_trivial d)) else get_wrap (dn_ts d) 0.
  Definition dense_t1 (d : dense_interpolation) : option xtime :=
    if (dn_ts_size d =? 1)%nat then Some (Fin (dn_t0_if_trivial d))
    else get_wrap (dn_ts d) (Z.of_nat (dn_ts_size d) - 1).
End Dense.
Arguments dense_interpolation : clear implicits.

Section Solution.
  Context {Y SS CS DI E V MS : Type}.
  (** [_integrate.py:1499-1513]: [sol.interpolation]. *)
  Definition sol_interpolation (c : config Y SS CS DI E V MS) (i : initial Y SS CS MS)
             (o : outcome Y SS CS DI V MS) : dense_interpolation Y DI :=
    let s := out_state o in
    DenseInterpolation (st_dense_ts s) (st_dense_index s + 1) (st_dense_infos s) (interpolate c)
                       (cfg_t0 c) (in_y i).
End Solution.
