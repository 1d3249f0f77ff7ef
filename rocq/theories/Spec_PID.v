(** Specification vocabulary for the PID controller. *)
From Coq Require Import QArith ZArith List Bool.
From Verif Require Import Model_Result Model_Loop Spec_Loop Model_Float Model_PID.
Import ListNotations.
Open Scope Q_scope.

(** Non-negative, possibly infinite, not NaN. *)
Definition nonneg (x : xq) : Prop := x = QPInf \/ exists q, x = QFin q /\ 0 <= q.
(** Positive and finite. *)
Definition positive (x : xq) : Prop := exists q, x = QFin q /\ 0 < q.

(** Sensible parameters, and an exponentiation that maps positive numbers to positive numbers and
    zero and infinity to non-negative ones. *)
Record pid_ok (p : pid_controller) : Prop := {
  ok_factormin : 0 < factormin p; ok_safety : factormin p <= safety p; ok_safety1 : safety p < 1;
  ok_factormax : 1 <= factormax p;
  ok_dtmin : forall m, dtmin p = Some m -> 0 < m;
  ok_dtmax : forall m, dtmax p = Some m -> 0 < m;
  ok_min_max : forall m M, dtmin p = Some m -> dtmax p = Some M -> m <= M;
  ok_power : forall x c, positive x -> positive (power p x c);
  ok_power_nonneg : forall x c, nonneg x -> nonneg (power p x c);
  (** A norm is NaN or non-negative. *)
  ok_norm : forall l, norm p l = QNaN \/ nonneg (norm p l)
}.
(** The stored inverse errors of a sane state. *)
Definition pid_state_ok (s : pid_state) : Prop :=
  positive (prev_inv_scaled_error s) /\ positive (prev_prev_inv_scaled_error s).

(** [_integrate.py:386]: NaN in the error estimate is replaced by infinity. *)
Definition nan_inf (x : xq) : xq := match x with QNaN => QPInf | _ => x end.

(** A norm that is infinite or NaN as soon as one component is. *)
Definition norm_detects (p : pid_controller) : Prop :=
  forall l leaf x, In leaf l -> In x leaf -> is_nan x || is_inf x = true ->
    norm p l = QPInf \/ norm p l = QNaN.

(** A run of consecutive rejections from time [t0]: each attempt ends where the controller proposed
    or earlier, is rejected, and does not fail.  The errors are arbitrary but not NaN. *)
Inductive rejections (p : pid_controller) (t0 : Q) : Q -> pid_state -> nat -> Prop :=
| rej_nil t1 s : rejections p t0 t1 s 0
| rej_cons t1 s y0 y1 err n t1' q :
    scaled_error p y0 y1 err <> QNaN ->
    let r := pid_adapt p (QFin t0) (QFin t1) y0 y1 err s in
    po_keep r = false -> po_result r = successful ->
    po_t1 r = QFin q -> t0 < t1' -> t1' <= q ->
    rejections p t0 t1' (po_state r) n -> rejections p t0 t1 s (S n).

(** The PID controller in the loop: [val] is the value of the float with a given ordinal, [rnd]
    rounding.  (A NaN time has no ordinal; it does not occur if the norm is never NaN.) *)
Definition pid_loop_adapt (val : Z -> Q) (rnd : Q -> Z) (p : pid_controller) (t0 t1 : Z)
           (y0 y1 err : tree) (s : pid_state) : adapt_out pid_state :=
  let r := pid_adapt p (QFin (val t0)) (QFin (val t1)) y0 y1 err s in
  let ord x := match x with QFin q => rnd q | _ => t1 end in
  AdaptOut (po_keep r) (ord (po_t0 r)) (ord (po_t1 r)) false (po_state r) (po_result r).
Record rounding (val : Z -> Q) (rnd : Q -> Z) : Prop := {
  rd_val : forall a b, (a <= b)%Z -> val a <= val b;
  rd_mono : forall x y, x <= y -> (rnd x <= rnd y)%Z;
  rd_id : forall a, rnd (val a) = a
}.

(** A solve with a PID controller that has a [dtmin]. *)
Section SpecPidLoop.
  Context {SS DI V MS : Type}.
  Definition pid_solve (val : Z -> Q) (rnd : Q -> Z) (p : pid_controller)
             (c : config tree SS pid_state DI tree V MS) (i : initial tree SS pid_state MS) : Prop :=
    (forall a b y0 y1 err s, adapt c a b y0 y1 err s = pid_loop_adapt val rnd p a b y0 y1 err s) /\
    stepto_len c = None /\ pid_state_ok (in_controller_state i) /\ (cfg_t0 c < in_tnext i)%Z /\
    (cfg_t0 c < cfg_t1 c)%Z /\ (forall l, norm p l <> QNaN).

  (** [dtmin] is large in comparison with the spacing of floating point numbers in [[t0, t1]]: adding
      it changes a time, shrinking a longer step by [safety] changes its end, and the midpoint
      towards [t1] is strictly inside if the interval is longer than [dtmin], and not one of the last
      100 floats if half of it is. *)
  Definition dtmin_resolved (val : Z -> Q) (rnd : Q -> Z) (p : pid_controller)
             (c : config tree SS pid_state DI tree V MS) (m : Q) : Prop :=
    forall a, (cfg_t0 c <= a < cfg_t1 c)%Z ->
      (a < rnd (val a + m)%Q)%Z /\
      (forall b, (a < b <= cfg_t1 c)%Z -> m < val b - val a ->
         (rnd (val a + safety p * (val b - val a))%Q < b)%Z) /\
      (m < val (cfg_t1 c) - val a -> (a < midpoint c a (cfg_t1 c))%Z) /\
      (m < val (midpoint c a (cfg_t1 c)) - val a ->
         (midpoint c a (cfg_t1 c) <= cfg_t1 c - 100)%Z).
End SpecPidLoop.
