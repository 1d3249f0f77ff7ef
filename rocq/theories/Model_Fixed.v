(** The step size controllers that do not adapt.  Models
    [/repo/diffrax/_step_size_controller/constant.py]. *)
From Coq Require Import ZArith List Bool Arith QArith Qround.
From Verif Require Import Model_Result Model_Loop.
Import ListNotations.
Open Scope Z_scope.

(** The arithmetic on times that [ConstantStepSize] uses.  [T] is the type of times: ordinals of
    floats in the loop, rationals for exact arithmetic. *)
Record time_ops (T : Type) := TimeOps {
  t_add : T -> T -> T; t_sub : T -> T -> T; t_mul : T -> T -> T; t_div : T -> T -> T;
  t_of_int : Z -> T; t_ceil : T -> Z; t_nextafter : T -> T; t_isfinite : T -> bool
}.
Arguments t_add {T}. Arguments t_sub {T}. Arguments t_mul {T}. Arguments t_div {T}.
Arguments t_of_int {T}. Arguments t_ceil {T}. Arguments t_nextafter {T}. Arguments t_isfinite {T}.

Section Constant.
  Context {T : Type} (o : time_ops T).

  (** [constant.py:14-17] [_ConstantStepSizeState].  [int32] is modelled by [Z]: no overflow. *)
  Record const_state := ConstState {
    steps_completed : Z; num_steps : Z; t0_sim : T; t1_sim_or_dt0 : T
  }.

  (** [constant.py:30-55] [init]; [dt0 = None] raises and is not modelled. *)
  Definition const_init (t0 t1 dt0 : T) : T * const_state :=
    let n := t_ceil o (t_div o (t_sub o t1 t0) (t_nextafter o dt0)) in
    let n := if t_isfinite o t1 then n else -1 in
    let x := if t_isfinite o t1 then t1 else dt0 in
    (t_add o t0 dt0, ConstState 1 n t0 x).

  (** [constant.py:78-97]: the end of the next step. *)
  Definition const_next (s : const_state) (t1 : T) : T :=
    let k := steps_completed s + 1 in
    let t1_next := t_add o (t0_sim s)
                         (t_mul o (t_sub o (t1_sim_or_dt0 s) (t0_sim s))
                                (t_div o (t_of_int o k) (t_of_int o (num_steps s)))) in
    let t1_next := if k =? num_steps s then t1_sim_or_dt0 s else t1_next in
    if 0 <=? num_steps s then t1_next else t_add o t1 (t1_sim_or_dt0 s).

  (** [constant.py:98-104] *)
  Definition const_step (s : const_state) : const_state :=
    ConstState (steps_completed s + 1) (num_steps s) (t0_sim s) (t1_sim_or_dt0 s).
End Constant.
Arguments const_state : clear implicits.

Section Adapt.
  Context {Y E : Type}.

  (** [constant.py:57-104] [ConstantStepSize.adapt_step_size]; in the loop times are ordinals. *)
  Definition const_adapt (o : time_ops Z) (t0 t1 : Z) (y0 y1 : Y) (err : E) (s : const_state Z)
    : adapt_out (const_state Z) :=
    AdaptOut true t1 (const_next o s t1) false (const_step s) successful.

  (** [constant.py:138-159] [StepTo.init]: the checks [ts[0] = t0], [ts[-1] = t1] and that [ts] is
      strictly increasing (line 133) and has two elements (line 126) are hypotheses of theorems. *)
  Definition stepto_init (ts : list Z) : option (Z * nat) :=
    match get_clamp ts 1 with Some t => Some (t, 2%nat) | None => None end.

  (** [constant.py:161-178] [StepTo.adapt_step_size].  JAX clamps an index past the end. *)
  Definition stepto_adapt (ts : list Z) (t0 t1 : Z) (y0 y1 : Y) (err : E) (s : nat)
    : adapt_out nat :=
    AdaptOut true t1 (match get_clamp ts s with Some t => t | None => t1 end) false (s + 1)%nat
             successful.
End Adapt.

(** Exact arithmetic on rationals; [nextafter] is a parameter. *)
Definition exact_ops (next : Q -> Q) : time_ops Q :=
  TimeOps Q Qplus Qminus Qmult Qdiv inject_Z Qceiling next (fun _ => true).
