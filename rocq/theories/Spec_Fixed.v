(** Specification vocabulary for the fixed step size controllers. *)
From Coq Require Import ZArith List Bool Arith Sorting.Sorted QArith.
From Verif Require Import Model_Result Model_Loop Spec_Loop Model_Fixed.
Import ListNotations.
Open Scope Z_scope.

Section SpecFixed.
  Context {Y SS DI E V MS : Type}.

  (** A solve with [StepTo(ts)]. *)
  Definition stepto_solve (ts : list Z) (c : config Y SS nat DI E V MS) (i : initial Y SS nat MS)
    : Prop :=
    (forall a b y y1 e s, adapt c a b y y1 e s = stepto_adapt ts a b y y1 e s) /\
    Some (in_tnext i, in_controller_state i) = stepto_init ts /\
    stepto_len c = Some (length ts) /\ (2 <= length ts)%nat /\ StronglySorted Z.lt ts /\
    nth_error ts 0 = Some (cfg_t0 c) /\ nth_error ts (length ts - 1) = Some (cfg_t1 c).

  (** A solve with [ConstantStepSize] and [dt0]. *)
  Definition const_solve (o : time_ops Z) (dt0 : Z) (c : config Y SS (const_state Z) DI E V MS)
             (i : initial Y SS (const_state Z) MS) : Prop :=
    (forall a b y y1 e s, adapt c a b y y1 e s = const_adapt o a b y y1 e s) /\
    (in_tnext i, in_controller_state i) = const_init o (cfg_t0 c) (cfg_t1 c) dt0 /\
    stepto_len c = None /\ cfg_t0 c < cfg_t1 c /\ t_isfinite o (cfg_t1 c) = true.
End SpecFixed.

(** Properties of floating point arithmetic, expressed on ordinals (0 is the float zero): the
    operations are rounded exact ones, and rounding is monotone. *)
Record ops_ok (o : time_ops Z) : Prop := {
  ok_add : forall t a b, a <= b -> t_add o t a <= t_add o t b;
  ok_add0 : forall t, t_add o t 0 = t;
  ok_sub : forall a b, a <= b -> 0 <= t_sub o b a;
  ok_mul : forall d a b, 0 <= d -> a <= b -> t_mul o d a <= t_mul o d b;
  ok_mul0 : forall d, t_mul o d 0 = 0;
  ok_div : forall n a b, 0 < n -> a <= b -> t_div o a n <= t_div o b n;
  ok_div0 : forall n, 0 < n -> t_div o 0 n = 0;
  ok_int : forall a b, a <= b -> t_of_int o a <= t_of_int o b;
  ok_int0 : t_of_int o 0 = 0;
  ok_int_pos : forall a, 0 < a -> 0 < t_of_int o a
}.

(** The [k]-th of [n] equidistant points from [t0] to [t1], as computed. *)
Definition fraction (o : time_ops Z) (t0 t1 : Z) (k n : Z) : Z :=
  t_add o t0 (t_mul o (t_sub o t1 t0) (t_div o (t_of_int o k) (t_of_int o n))).
(** The number of steps [ConstantStepSize] intends to make. *)
Definition intended_steps (o : time_ops Z) (t0 t1 dt0 : Z) : Z :=
  t_ceil o (t_div o (t_sub o t1 t0) (t_nextafter o dt0)).

(** The times between which [ConstantStepSize] steps: [t0], [t0 + dt0], then equidistant points;
    none is after [t1], and those in the last 100 floats before [t1] are moved to [t1]. *)
Definition const_point (o : time_ops Z) (t0 t1 dt0 : Z) (k : nat) : Z :=
  let n := intended_steps o t0 t1 dt0 in
  match k with
  | O => t0
  | 1%nat => Z.min (t_add o t0 dt0) t1
  | _ => let x := if (Z.of_nat k =? n)%Z then t1 else fraction o t0 t1 (Z.of_nat k) n in
         if t1 - 100 <? x then t1 else x
  end.

(** In exact arithmetic, the ends of the steps: the first is returned by [const_init], the others
    by iterating [const_next]. *)
Fixpoint exact_end (next : Q -> Q) (t0 t1 dt0 : Q) (k : nat) : Q * const_state Q :=
  match k with
  | O => const_init (exact_ops next) t0 t1 dt0
  | S k' => let '(t, s) := exact_end next t0 t1 dt0 k' in
            (const_next (exact_ops next) s t, const_step s)
  end.
