(** Vocabulary for the relation between tolerances and the error of a whole solve. *)
From Coq Require Import QArith Qabs ZArith Reals Qreals List Bool.
From Verif Require Import Model_Result Model_Loop Spec_Loop Model_Float Model_PID Spec_PID Spec_PidEnd.
Import ListNotations.
Open Scope R_scope.

(** The exact solutions of an equation: [flow s t x] is the value at time [t] of the solution which is
    [x] at time [s].  [d] measures distances; solutions move apart no faster than at the rate [L]. *)
Record exact_flow {W : Type} (d : W -> W -> R) (flow : R -> R -> W -> W) (L : R) : Prop := {
  fl_triangle : forall x y z, d x z <= d x y + d y z;
  fl_self : forall x, d x x = 0;
  fl_start : forall t x, flow t t x = x;
  fl_compose : forall r s t x, r <= s -> s <= t -> flow s t (flow r s x) = flow r t x;
  fl_rate : forall s t x y, s <= t -> d (flow s t x) (flow s t y) <= exp (L * (t - s)) * d x y
}.

Section SpecTolerance.
  Context {Y W : Type}.
  (** Values of the solve, such as PyTrees of floats, stand for elements of [W]. *)
  Variables (emb : Y -> W) (time : Z -> R) (d : W -> W -> R) (flow : R -> R -> W -> W).

  (** The distance of the result of a step from the exact solution through its starting point. *)
  Definition local_error (a : attempt Y) : R :=
    d (emb (at_y a)) (flow (time (at_from a)) (time (at_to a)) (emb (at_yprev a))).
  (** The local errors of the steps [l], each grown at the rate [L] until time [t]. *)
  Definition grown_errors (L : R) (t : R) (l : list (attempt Y)) : R :=
    fold_right (fun a r => exp (L * (t - time (at_to a))) * local_error a + r) 0 l.
End SpecTolerance.

(** Trees of the same shape. *)
Definition shape (l : tree) : list nat := map (@length xq) l.

(** If the norm is below 1 then all entries are at most [w] in size: [w = 1] for the maximum norm, the
    square root of the number of entries for the root mean square. *)
Definition norm_controls (p : pid_controller) (w : Q) : Prop :=
  forall l, xlt (norm p l) (QFin 1) = true -> bounded_tree w l.

Section SpecReliable.
  Context {SS DI V MS W : Type}.
  Notation config := (config tree SS pid_state DI tree V MS).
  (** The estimate (as the controller sees it) is reliable for values up to [B] in size: the local error
      is at most [kappa] times the estimate. *)
  Definition reliable (c : config) (emb : tree -> W) (time : Z -> R) (d : W -> W -> R) (flow : R -> R -> W -> W)
             (kappa : R) (B : Q) : Prop :=
    forall a b y ss j q, (cfg_t0 c <= a)%Z -> (a <= b)%Z -> (b <= cfg_t1 c)%Z -> (0 <= q)%Q ->
      let so := solver_step c a b y ss j in
      bounded_tree B y -> bounded_tree B (so_y so) -> bounded_tree q (nan_to_inf c (so_error so)) ->
      d (emb (so_y so)) (flow (time a) (time b) (emb y)) <= kappa * Q2R q.
  (** Values and estimates have the shape of the state. *)
  Definition keeps_shape (c : config) : Prop :=
    forall a b y ss j, let so := solver_step c a b y ss j in
      shape (so_y so) = shape y /\ shape (nan_to_inf c (so_error so)) = shape y.
End SpecReliable.
