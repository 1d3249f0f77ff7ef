(** Vocabulary for the termination of adaptive solves. *)
From Coq Require Import QArith Qabs ZArith List Bool.
From Verif Require Import Model_Result Model_Loop Spec_Loop Model_Float Model_PID Spec_PID.
Import ListNotations.
Open Scope Q_scope.

(** Times in [[a, b]] are rounded with an error of at most [u]. *)
Definition rounding_error (val : Z -> Q) (rnd : Q -> Z) (a b : Z) (u : Q) : Prop :=
  forall x, val a <= x -> x <= val b -> Qabs (val (rnd x) - x) <= u.
(** So are the midpoints that the loop computes. *)
Definition midpoint_error (val : Z -> Q) (mid : Z -> Z -> Z) (a b : Z) (u : Q) : Prop :=
  forall x, (a <= x <= b)%Z -> Qabs (val (mid x b) - (val x + val b) / 2) <= u.

(** All steps of at most [h] are accepted, the first step is at least [2 * delta], and rounding is
    negligible: [T] is the length of the interval of integration. *)
Record negligible (p : pid_controller) (T h delta u : Q) : Prop := {
  ng_h : 0 < h; ng_delta : 0 < delta; ng_u : 0 <= u;
  ng_accumulate : u * T <= delta * delta;
  ng_factormin : 2 * delta + u <= factormin p * h;
  ng_half : 2 * delta + u <= h / 2;
  ng_dtmax : forall M, dtmax p = Some M -> 2 * delta + u <= M;
  ng_safety : 204 * u <= (1 - safety p) * h
}.

Section SpecPidEnd.
  Context {SS DI V MS : Type}.
  Notation config := (config tree SS pid_state DI tree V MS).
  Notation initial := (initial tree SS pid_state MS).
  Notation state := (state tree SS pid_state DI V MS).

  (** A solve with the PID controller [p]. *)
  Definition pid_run (val : Z -> Q) (rnd : Q -> Z) (p : pid_controller) (c : config) (i : initial) : Prop :=
    (forall a b y0 y1 err s, adapt c a b y0 y1 err s = pid_loop_adapt val rnd p a b y0 y1 err s) /\
    stepto_len c = None /\ pid_state_ok (in_controller_state i) /\ (cfg_t0 c < in_tnext i)%Z /\
    (cfg_t0 c < cfg_t1 c)%Z.

  (** The scaled error of the attempt made from [s]; no scaled error is NaN. *)
  Definition attempt_error (p : pid_controller) (c : config) (s : state) : xq :=
    let so := solver_step c (st_tprev s) (st_tnext s) (st_y s) (st_solver_state s) (st_made_jump s) in
    scaled_error p (st_y s) (so_y so) (nan_to_inf c (so_error so)).
  Definition no_nan_error (p : pid_controller) (c : config) (s0 : state) : Prop :=
    forall n, cond_fun c (while_loop c n s0) = true -> attempt_error p c (while_loop c n s0) <> QNaN.

  (** In the solve from [s0] every attempt of length at most [h] is accepted. *)
  Definition short_accepted (val : Z -> Q) (c : config) (s0 : state) (h : Q) : Prop :=
    forall n a, In a (history c n s0) -> val (at_to a) - val (at_from a) <= h -> at_keep a = true.

  (** The first step, if it does not reach [t1]. *)
  Definition first_step_at_least (val : Z -> Q) (c : config) (i : initial) (d : Q) : Prop :=
    (in_tnext i < cfg_t1 c)%Z -> d <= val (in_tnext i) - val (cfg_t0 c).

  (** The loop ends, after at most [bound] attempts. *)
  Definition ends_within (c : config) (s0 : state) (bound : Q) : Prop :=
    (forall n, inject_Z (Z.of_nat (length (history c n s0))) <= bound) /\
    (forall n, bound < inject_Z (Z.of_nat n) -> cond_fun c (while_loop c n s0) = false).

  (** A tree of finite numbers of at most [q] in size. *)
  Definition finite_tree (l : tree) : Prop := Forall (Forall (fun x => exists q, x = QFin q)) l.
  Definition bounded_tree (q : Q) (l : tree) : Prop :=
    Forall (Forall (fun x => exists r, x = QFin r /\ Qabs r <= q)) l.
  (** A norm that is at most the maximum norm, as are the maximum norm and the root mean square. *)
  Definition norm_below_max (p : pid_controller) : Prop :=
    forall l q, 0 <= q -> bounded_tree q l -> exists r, norm p l = QFin r /\ r <= q.

  (** From finite states the solver computes finite states, and estimates an error of at most [k]
      times the length of the step; finite errors are passed to the controller unchanged. *)
  Definition error_at_most (val : Z -> Q) (c : config) (k : Q) : Prop :=
    forall a b y ss j, (cfg_t0 c <= a)%Z -> (a <= b)%Z -> (b <= cfg_t1 c)%Z -> finite_tree y ->
      let so := solver_step c a b y ss j in
      finite_tree (so_y so) /\ bounded_tree (k * (val b - val a)) (so_error so) /\
      nan_to_inf c (so_error so) = so_error so.
End SpecPidEnd.
